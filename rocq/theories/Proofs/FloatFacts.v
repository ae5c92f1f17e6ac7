(** binary64 text: printing then reading is the identity, and reading always yields a canonical number. *)
From Coq Require Import Decimal DecimalN DecimalFacts DecimalPos.
From Verif.Model Require Import Bytes Utf8 IntText Float64.
From Verif.Proofs Require Import BytesFacts IntFacts.

(** ** The binary exponent of a ratio *)

Section Ratio.
  Open Scope Z_scope.

  Definition ge2 (num den : N) (k : Z) : Prop := let '(a, b) := scaled num den k in (b <= a)%N.

  Lemma ge2_common : forall num den k K, 0 <= K -> 0 <= k + K ->
    (ge2 num den k <-> Z.of_N den * 2 ^ (k + K) <= Z.of_N num * 2 ^ K).
  Proof.
    intros num den k K HK HkK. unfold ge2, scaled.
    assert (P2 : forall a, 0 <= a -> 0 < 2 ^ a) by (intros; apply Z.pow_pos_nonneg; lia).
    destruct k as [|p|p].
    - simpl. rewrite N.mul_1_r. rewrite N2Z.inj_le. pose proof (P2 K HK). nia.
    - rewrite N2Z.inj_le, N2Z.inj_mul, N2Z.inj_pow. rewrite Z2N.id by lia. change (Z.of_N 2) with 2.
      rewrite Z.pow_add_r by lia. pose proof (P2 K HK). nia.
    - rewrite N2Z.inj_le, N2Z.inj_mul, N2Z.inj_pow. change (Z.of_N 2) with 2.
      change (Z.of_N (N.pos p)) with (Z.pos p).
      replace K with ((Z.neg p + K) + Z.pos p) at 2 by lia. rewrite Z.pow_add_r with (b := Z.neg p + K) by lia.
      pose proof (P2 (Z.neg p + K) ltac:(lia)). pose proof (P2 (Z.pos p) ltac:(lia)). nia.
  Qed.

  Lemma ge2_mono : forall num den k k', (0 < den)%N -> k <= k' -> ge2 num den k' -> ge2 num den k.
  Proof.
    intros num den k k' Hd Hk. set (K := Z.abs k + Z.abs k').
    rewrite (ge2_common num den k K), (ge2_common num den k' K) by lia.
    assert (2 ^ (k + K) <= 2 ^ (k' + K)) by (apply Z.pow_le_mono_r; lia). nia.
  Qed.

  Lemma scaled_ltb : forall num den k, (let '(a, b) := scaled num den k in (a <? b)%N) = true <-> ~ ge2 num den k.
  Proof. intros. unfold ge2. destruct (scaled num den k) as [a b]. rewrite N.ltb_lt. lia. Qed.

  Lemma ratio_log2_spec : forall num den, (0 < num)%N -> (0 < den)%N ->
    ge2 num den (ratio_log2 num den) /\ ~ ge2 num den (ratio_log2 num den + 1).
  Proof.
    intros num den Hn Hd. unfold ratio_log2.
    set (ln := Z.of_N (N.log2 num)). set (ld := Z.of_N (N.log2 den)).
    assert (Bn : 2 ^ ln <= Z.of_N num < 2 ^ (ln + 1)).
    { destruct (N.log2_spec num Hn) as [A B]. apply N2Z.inj_le in A. apply N2Z.inj_lt in B.
      rewrite N2Z.inj_pow in A, B. unfold ln. replace (Z.of_N (N.log2 num) + 1) with (Z.of_N (N.succ (N.log2 num))) by lia. auto. }
    assert (Bd : 2 ^ ld <= Z.of_N den < 2 ^ (ld + 1)).
    { destruct (N.log2_spec den Hd) as [A B]. apply N2Z.inj_le in A. apply N2Z.inj_lt in B.
      rewrite N2Z.inj_pow in A, B. unfold ld. replace (Z.of_N (N.log2 den) + 1) with (Z.of_N (N.succ (N.log2 den))) by lia. auto. }
    assert (Hln : 0 <= ln) by (unfold ln; lia). assert (Hld : 0 <= ld) by (unfold ld; lia).
    assert (Lo : ge2 num den (ln - ld - 1)).
    { apply (ge2_common num den _ (ld + 1)); try lia. replace (ln - ld - 1 + (ld + 1)) with ln by lia.
      pose proof (Z.pow_pos_nonneg 2 ln ltac:(lia) Hln). pose proof (Z.pow_pos_nonneg 2 (ld + 1) ltac:(lia) ltac:(lia)). nia. }
    assert (Hi : ~ ge2 num den (ln - ld + 1)).
    { rewrite (ge2_common num den _ ld) by lia. replace (ln - ld + 1 + ld) with (ln + 1) by lia.
      pose proof (Z.pow_pos_nonneg 2 (ln + 1) ltac:(lia) ltac:(lia)). pose proof (Z.pow_pos_nonneg 2 ld ltac:(lia) Hld). nia. }
    pose proof (scaled_ltb num den (ln - ld)) as S. unfold ge2 in *.
    destruct (scaled num den (ln - ld)) as [a b] eqn:E.
    destruct (a <? b)%N eqn:L.
    - split. exact Lo. replace (ln - ld - 1 + 1) with (ln - ld) by lia. rewrite E. apply S. reflexivity.
    - split. rewrite E. apply N.ltb_ge in L. exact L. exact Hi.
  Qed.

  Lemma ratio_log2_unique : forall num den k, (0 < num)%N -> (0 < den)%N ->
    ge2 num den k -> ~ ge2 num den (k + 1) -> ratio_log2 num den = k.
  Proof.
    intros num den k Hn Hd A B. destruct (ratio_log2_spec num den Hn Hd) as [C D].
    destruct (Z.lt_trichotomy (ratio_log2 num den) k) as [L|[L|L]]; auto.
    - exfalso. apply D. apply (ge2_mono num den _ k); auto. lia.
    - exfalso. apply B. apply (ge2_mono num den _ (ratio_log2 num den)); auto. lia.
  Qed.

  (** num / den = m * 2^e exactly. *)
  Definition exactly (num den m : N) (e : Z) : Prop := let '(a, b) := scaled num den e in a = (m * b)%N.

  Lemma exactly_common : forall num den m e K, 0 <= K -> 0 <= e + K ->
    exactly num den m e -> Z.of_N num * 2 ^ K = Z.of_N m * (Z.of_N den * 2 ^ (e + K)).
  Proof.
    intros num den m e K HK HeK. unfold exactly, scaled.
    destruct e as [|p|p]; intro H; apply (f_equal Z.of_N) in H; rewrite ?N2Z.inj_mul, ?N2Z.inj_pow in H.
    - rewrite Z.add_0_l. simpl in H. nia.
    - rewrite Z2N.id in H by lia. rewrite Z.pow_add_r by lia. change (Z.of_N 2) with 2 in H. nia.
    - change (Z.of_N 2) with 2 in H. change (Z.of_N (N.pos p)) with (Z.pos p) in H.
      replace K with ((Z.neg p + K) + Z.pos p) at 1 by lia. rewrite Z.pow_add_r by lia. nia.
  Qed.

  Lemma scaled_pos : forall num den e, (0 < den)%N -> (0 < snd (scaled num den e))%N.
  Proof.
    intros num den e H. unfold scaled. destruct e as [|p|p]; cbn [snd]; auto.
    - assert (2 ^ Z.to_N 0 <> 0)%N by (apply N.pow_nonzero; lia). nia.
    - assert (2 ^ Z.to_N (Z.pos p) <> 0)%N by (apply N.pow_nonzero; lia). nia.
  Qed.

  Lemma round_half_even_exact : forall m b, (0 < b)%N -> round_half_even (m * b) b = m.
  Proof.
    intros m b H. unfold round_half_even. rewrite N.mod_mul, N.div_mul by lia.
    rewrite N.mul_0_r. destruct b; simpl; lia.
  Qed.

  Lemma round_ratio_exact : forall neg num den m e,
    (0 < m)%N -> (0 < den)%N -> f64_canonical (FFin neg m e) = true -> exactly num den m e ->
    round_ratio neg num den = FFin neg m e.
  Proof.
    intros neg num den m e Hm Hd C E.
    set (K := Z.abs e + Z.of_N (N.log2 m) + 2).
    pose proof (exactly_common num den m e K ltac:(lia) ltac:(lia) E) as EK.
    assert (Pp : forall a, 0 <= a -> 0 < 2 ^ a) by (intros; apply Z.pow_pos_nonneg; lia).
    assert (Hn : (0 < num)%N).
    { pose proof (Pp K ltac:(lia)). pose proof (Pp (e + K) ltac:(lia)).
      assert (0 < Z.of_N m * (Z.of_N den * 2 ^ (e + K))) by (apply Z.mul_pos_pos; try lia; apply Z.mul_pos_pos; lia). nia. }
    unfold round_ratio. destruct (N.eqb_spec num 0) as [Z0|_]; [lia|].
    destruct (N.log2_spec m Hm) as [Lm Um]. set (lm := Z.of_N (N.log2 m)) in *.
    assert (Lm' : 2 ^ lm <= Z.of_N m). { apply N2Z.inj_le in Lm. rewrite N2Z.inj_pow in Lm. exact Lm. }
    assert (Um' : Z.of_N m < 2 ^ (lm + 1)).
    { apply N2Z.inj_lt in Um. rewrite N2Z.inj_pow in Um. rewrite N2Z.inj_succ in Um. exact Um. }
    assert (L : ratio_log2 num den = lm + e).
    { apply ratio_log2_unique; auto.
      - apply (ge2_common num den (lm + e) K); try lia. rewrite EK.
        replace (lm + e + K) with (lm + (e + K)) by lia. rewrite Z.pow_add_r by lia. pose proof (Pp (e + K) ltac:(lia)). nia.
      - rewrite (ge2_common num den (lm + e + 1) K) by lia. rewrite EK.
        replace (lm + e + 1 + K) with ((lm + 1) + (e + K)) by lia. rewrite Z.pow_add_r by lia.
        pose proof (Pp (e + K) ltac:(lia)). intro A. nia. }
    assert (He : Z.max (-1074) (ratio_log2 num den - 52) = e /\ (m < 2 ^ 53)%N /\ e <= 971).
    { rewrite L. unfold f64_canonical in C. apply orb_true_iff in C. destruct C as [C|C].
      - apply andb_true_iff in C. destruct C as [C1 C2]. apply Z.eqb_eq in C1. apply N.ltb_lt in C2.
        assert (lm <= 52). { unfold lm. assert (N.log2 m < 53)%N by (apply N.log2_lt_pow2; auto). lia. }
        split; [lia|split; [exact C2|lia]].
      - repeat (apply andb_true_iff in C; destruct C as [C ?]).
        apply N.ltb_lt in H. apply N.leb_le in H0. apply Z.leb_le in H1. apply Z.ltb_lt in C.
        assert (N.log2 m < 53)%N by (apply N.log2_lt_pow2; auto).
        assert (52 <= N.log2 m)%N by (apply N.log2_le_pow2; auto).
        split; [unfold lm; lia|auto]. }
    destruct He as (He & Bm & Be). rewrite He.
    unfold exactly in E. destruct (scaled num den e) as [a b] eqn:S.
    assert (0 < b)%N. { pose proof (scaled_pos num den e Hd). rewrite S in H. exact H. }
    subst a. rewrite round_half_even_exact by auto.
    destruct (N.eqb_spec m (2 ^ 53)) as [X|_]; [lia|].
    destruct (Z.ltb_spec 971 e); [lia|reflexivity].
  Qed.

  Lemma round_half_even_bounds : forall a b lo hi, (0 < b)%N -> (lo * b <= a)%N -> (a < hi * b)%N ->
    (lo <= round_half_even a b <= hi)%N.
  Proof.
    intros a b lo hi Hb Hlo Hhi. unfold round_half_even.
    assert (lo <= a / b)%N by (apply N.div_le_lower_bound; lia).
    assert (a / b < hi)%N by (apply N.div_lt_upper_bound; lia).
    destruct (2 * (a mod b) ?= b)%N; [destruct (N.even (a / b))| |]; lia.
  Qed.

  Lemma round_ratio_canonical : forall neg num den, (0 < den)%N -> f64_canonical (round_ratio neg num den) = true.
  Proof.
    intros neg num den Hd. unfold round_ratio. destruct (N.eqb_spec num 0) as [Z0|NZ]; [reflexivity|].
    assert (Hn : (0 < num)%N) by lia.
    destruct (ratio_log2_spec num den Hn Hd) as [A B]. set (L := ratio_log2 num den) in *.
    set (e := Z.max (-1074) (L - 52)). set (K := Z.abs L + Z.abs e + 60).
    assert (Pp : forall a, 0 <= a -> 0 < 2 ^ a) by (intros; apply Z.pow_pos_nonneg; lia).
    pose proof (scaled_pos num den e Hd) as Sp.
    destruct (scaled num den e) as [a b] eqn:S. simpl in Sp.
    (* cross relation of a/b with num/den *)
    assert (X : Z.of_N num * 2 ^ K * Z.of_N b = Z.of_N a * (Z.of_N den * 2 ^ (e + K))).
    { assert (exactly (num * b) den a e).
      { unfold exactly. unfold scaled in S |- *. destruct e as [|p|p]; pose proof (f_equal fst S) as S1; pose proof (f_equal snd S) as S2; cbn [fst snd] in S1, S2; rewrite <- S1, <- S2; ring. }
      pose proof (exactly_common (num * b) den a e K ltac:(lia) ltac:(lia) H) as Y. rewrite N2Z.inj_mul in Y. nia. }
    pose proof (Pp (e + K) ltac:(lia)) as PeK. pose proof (Pp K ltac:(lia)) as PK.
    apply (ge2_common num den L K) in A; try lia.
    rewrite (ge2_common num den (L + 1) K) in B by lia.
    assert (UB : (a < 2 ^ 53 * b)%N).
    { apply N2Z.inj_lt. rewrite N2Z.inj_mul, N2Z.inj_pow. change (Z.of_N 2 ^ Z.of_N 53) with (2 ^ 53).
      assert (2 ^ (L + 1 + K) <= 2 ^ 53 * 2 ^ (e + K)). { rewrite <- Z.pow_add_r by lia. apply Z.pow_le_mono_r; lia. }
      assert (Z.of_N num * 2 ^ K < Z.of_N den * (2 ^ 53 * 2 ^ (e + K))) by nia.
      apply Z.mul_lt_mono_pos_r with (p := Z.of_N den * 2 ^ (e + K)); [nia|]. rewrite <- X. nia. }
    assert (LB : -1074 < e -> (2 ^ 52 * b <= a)%N).
    { intro E. apply N2Z.inj_le. rewrite N2Z.inj_mul, N2Z.inj_pow. change (Z.of_N 2 ^ Z.of_N 52) with (2 ^ 52).
      assert (2 ^ (L + K) = 2 ^ 52 * 2 ^ (e + K)). { rewrite <- Z.pow_add_r by lia. f_equal. lia. }
      rewrite H in A. apply Z.mul_le_mono_pos_r with (p := Z.of_N den * 2 ^ (e + K)); [nia|]. rewrite <- X. nia. }
    assert (RB : (round_half_even a b <= 2 ^ 53)%N).
    { apply (round_half_even_bounds a b 0 (2 ^ 53)); auto. lia. }
    assert (RL : -1074 < e -> (2 ^ 52 <= round_half_even a b)%N).
    { intro E. apply (round_half_even_bounds a b (2 ^ 52) (2 ^ 53)); auto. }
    destruct (N.eqb_spec (round_half_even a b) (2 ^ 53)) as [Q|Q].
    - destruct (Z.ltb_spec 971 (e + 1)); [reflexivity|].
      unfold f64_canonical. apply orb_true_iff. right.
      rewrite !andb_true_iff. repeat split; try reflexivity; [apply Z.ltb_lt; lia|apply Z.leb_le; lia].
    - destruct (Z.ltb_spec 971 e); [reflexivity|].
      unfold f64_canonical. apply orb_true_iff.
      destruct (Z.eq_dec e (-1074)) as [D|D].
      + left. rewrite andb_true_iff. split; [now apply Z.eqb_eq|apply N.ltb_lt; lia].
      + right. rewrite !andb_true_iff. specialize (RL ltac:(lia)).
        repeat split; [apply Z.ltb_lt; lia|apply Z.leb_le; lia|apply N.leb_le; auto|apply N.ltb_lt; lia].
  Qed.
End Ratio.

Lemma dec_to_f64_canonical : forall neg d k, f64_canonical (dec_to_f64 neg d k) = true.
Proof.
  intros neg d k. unfold dec_to_f64. destruct k; apply round_ratio_canonical; try lia.
Qed.

Lemma exact_decimal_reads_back : forall neg m e, (0 < m)%N -> f64_canonical (FFin neg m e) = true ->
  dec_to_f64 neg (fst (exact_decimal m e)) (snd (exact_decimal m e)) = FFin neg m e.
Proof.
  intros neg m e Hm C. unfold dec_to_f64, exact_decimal.
  destruct e as [|p|p]; cbn [fst snd].
  - apply round_ratio_exact; auto; try lia. unfold exactly, scaled. simpl. lia.
  - apply round_ratio_exact; auto; try lia. unfold exactly, scaled. simpl (Z.to_N 0). rewrite N.pow_0_r. lia.
  - assert (10 ^ N.pos p <> 0)%N by (apply N.pow_nonzero; lia).
    apply round_ratio_exact; auto; try lia. unfold exactly, scaled.
    replace 10%N with (5 * 2)%N by lia. rewrite N.pow_mul_l. lia.
Qed.

Lemma f64_eqb_eq : forall x y, f64_eqb x y = true <-> x = y.
Proof.
  intros x y. split.
  - destruct x, y; simpl; try discriminate; auto.
    + intro H. apply eqb_prop in H. congruence.
    + intro H. rewrite !andb_true_iff in H. destruct H as [[A B] C].
      apply eqb_prop in A. apply N.eqb_eq in B. apply Z.eqb_eq in C. congruence.
  - intros <-. destruct x; simpl; auto. now rewrite eqb_reflx. now rewrite eqb_reflx, N.eqb_refl, Z.eqb_refl.
Qed.

Lemma shortest_reads_back : forall ns neg m e p10, (0 < m)%N -> f64_canonical (FFin neg m e) = true ->
  let c := shortest ns neg m e p10 in dec_to_f64 neg (fst c) (snd c) = FFin neg m e.
Proof.
  induction ns as [|n ns IH]; intros neg m e p10 Hm C; cbn [shortest].
  - now apply exact_decimal_reads_back.
  - destruct (find (reads_back neg m e) (candidates m e p10 n)) as [c|] eqn:F.
    + apply find_some in F. destruct F as [_ F]. unfold reads_back in F. now apply f64_eqb_eq in F.
    + now apply IH.
Qed.

(** ** Reading positional text *)

Lemma of_uint_app : forall d d', N.of_uint (Decimal.app d d') = (N.of_uint d * 10 ^ N.of_nat (nb_digits d') + N.of_uint d')%N.
Proof.
  intros d d'. unfold N.of_uint. rewrite !DecimalPos.Unsigned.of_uint_alt.
  replace (Decimal.rev (Decimal.app d d')) with (revapp d' (Decimal.rev d))
    by (apply to_list_inj; rewrite revapp_spec, !rev_spec, app_spec, rev_app_distr, rev_append_rev; reflexivity).
  rewrite DecimalPos.Unsigned.of_lu_revapp. rewrite N.add_comm. f_equal. f_equal.
  (* usize is nb_digits *)
  assert (H : forall x, DecimalPos.Unsigned.usize x = N.of_nat (nb_digits x)).
  { induction x; simpl nb_digits; simpl DecimalPos.Unsigned.usize; auto; rewrite IHx; lia. }
  now rewrite H.
Qed.

Lemma uint_text_app : forall s s' d d', text_uint s = Some d -> text_uint s' = Some d' -> text_uint (s ++ s') = Some (Decimal.app d d').
Proof.
  assert (Happ : forall d d', (Decimal.app (D0 d) d' = D0 (Decimal.app d d')) /\ (Decimal.app (D1 d) d' = D1 (Decimal.app d d'))
    /\ (Decimal.app (D2 d) d' = D2 (Decimal.app d d')) /\ (Decimal.app (D3 d) d' = D3 (Decimal.app d d'))
    /\ (Decimal.app (D4 d) d' = D4 (Decimal.app d d')) /\ (Decimal.app (D5 d) d' = D5 (Decimal.app d d'))
    /\ (Decimal.app (D6 d) d' = D6 (Decimal.app d d')) /\ (Decimal.app (D7 d) d' = D7 (Decimal.app d d'))
    /\ (Decimal.app (D8 d) d' = D8 (Decimal.app d d')) /\ (Decimal.app (D9 d) d' = D9 (Decimal.app d d'))).
  { intros d d'. repeat split; apply to_list_inj; simpl to_list; rewrite !app_spec; reflexivity. }
  induction s as [|c s IH]; intros s' d d' H H'; simpl in H |- *.
  - inversion H. subst. exact H'.
  - destruct (text_uint s) as [d0|] eqn:E; try discriminate. rewrite (IH s' d0 d' eq_refl H').
    destruct (Happ d0 d') as (A0 & A1 & A2 & A3 & A4 & A5 & A6 & A7 & A8 & A9).
    repeat (match goal with |- context [if ?b then _ else _] => destruct b end; [inversion H; subst; congruence|]). discriminate.
Qed.

Lemma text_uint_repeat0 : forall k, exists z, text_uint (repeat "0"%byte k) = Some z /\ N.of_uint z = 0%N /\ nb_digits z = k.
Proof.
  induction k as [|k (z & A & B & C)]; simpl.
  - now exists Nil.
  - rewrite A. exists (D0 z). repeat split; auto. simpl. now rewrite C.
Qed.

Lemma digits_N_text : forall d, digits_N (N_text d) = d.
Proof.
  intro d. unfold digits_N. pose proof (text_N_text d) as T. destruct (N_text d) eqn:E.
  - destruct (N_text_nonempty d E).
  - now rewrite T.
Qed.

Lemma digits_N_zeros_after : forall d k, digits_N (N_text d ++ repeat "0"%byte k) = (d * 10 ^ N.of_nat k)%N.
Proof.
  intros d k. unfold digits_N, text_N.
  destruct (text_uint_repeat0 k) as (z & A & B & C).
  assert (T : text_uint (N_text d) = Some (N.to_uint d)) by apply text_uint_text.
  pose proof (uint_text_app _ _ _ _ T A) as X.
  destruct (N_text d ++ repeat "0"%byte k) as [|c l] eqn:E.
  - apply app_eq_nil in E. destruct E as [E _]. destruct (N_text_nonempty d E).
  - rewrite X. simpl option_map. cbn iota. rewrite of_uint_app, B, C, DecimalN.Unsigned.of_to. lia.
Qed.

Lemma digits_N_zeros_before : forall d k, digits_N (repeat "0"%byte k ++ N_text d) = d.
Proof.
  intros d k. unfold digits_N, text_N.
  assert (T : text_uint (N_text d) = Some (N.to_uint d)) by apply text_uint_text.
  pose proof (text_uint_zeros k _ _ T) as X.
  destruct (repeat "0"%byte k ++ N_text d) as [|c l] eqn:E.
  - apply app_eq_nil in E. destruct E as [_ E]. destruct (N_text_nonempty d E).
  - rewrite X. simpl option_map. cbn iota. now rewrite of_uint_zeros, DecimalN.Unsigned.of_to.
Qed.

Lemma span_digits_all : forall s r, (forall c, In c s -> is_digit c = true) ->
  match r with [] => True | c :: _ => is_digit c = false end -> span_digits (s ++ r) = (s, r).
Proof.
  induction s as [|c s IH]; intros r H R; simpl.
  - destruct r as [|x r]; auto. simpl. now rewrite R.
  - rewrite (H c (or_introl eq_refl)). rewrite IH; auto. intros x Hx. apply H. now right.
Qed.

Lemma repeat0_digits : forall k c, In c (repeat "0"%byte k) -> is_digit c = true.
Proof. intros k c H. apply repeat_spec in H. now subst. Qed.

Lemma positional_ascii_digit : forall d k, exists c r, positional d k = c :: r /\ is_digit c = true.
Proof.
  intros d k. pose proof (N_text_digits d) as D.
  destruct (N_text d) as [|c t] eqn:E. { destruct (N_text_nonempty d E). }
  assert (Hc : is_digit c = true) by (apply D; now left).
  unfold positional. rewrite E. destruct k as [|p|p].
  - exists c, (t ++ repeat "0"%byte (Z.to_nat 0)). auto.
  - exists c, (t ++ repeat "0"%byte (Z.to_nat (Z.pos p))). auto.
  - destruct (Nat.ltb_spec (Pos.to_nat p) (length (c :: t))).
    + destruct (length (c :: t) - Pos.to_nat p) eqn:L; [lia|]. simpl firstn. eexists c, _. split; [reflexivity|auto].
    + eexists "0"%byte, _. split; reflexivity.
Qed.

Lemma parse_number_int : forall neg s, s <> [] -> (forall c, In c s -> is_digit c = true) ->
  parse_number neg s = Some (dec_to_f64 neg (digits_N s) 0).
Proof.
  intros neg s NE D. unfold parse_number. pose proof (span_digits_all s [] D I) as S. rewrite app_nil_r in S. rewrite S.
  rewrite app_nil_r. destruct s; [congruence|reflexivity].
Qed.

Lemma parse_number_frac : forall neg a b, a <> [] -> (forall c, In c a -> is_digit c = true) -> (forall c, In c b -> is_digit c = true) ->
  parse_number neg (a ++ "."%byte :: b) = Some (dec_to_f64 neg (digits_N (a ++ b)) (- Z.of_nat (length b))).
Proof.
  intros neg a b NE Da Db. unfold parse_number. rewrite span_digits_all by auto. rewrite beqb_refl.
  pose proof (span_digits_all b [] Db I) as S. rewrite app_nil_r in S. rewrite S.
  destruct a as [|c a]; [congruence|]. cbn [app parse_exp]. reflexivity.
Qed.

Lemma parse_number_positional : forall neg d k, parse_number neg (positional d k) = Some (dec_to_f64 neg d k).
Proof.
  intros neg d k.
  pose proof (N_text_digits d) as D. pose proof (N_text_nonempty d) as NE.
  assert (I0 : forall n, parse_number neg (N_text d ++ repeat "0"%byte n) = Some (dec_to_f64 neg (d * 10 ^ N.of_nat n) 0)).
  { intro n. rewrite parse_number_int, digits_N_zeros_after; auto.
    - intro E. apply app_eq_nil in E. tauto.
    - intros c H. apply in_app_or in H. destruct H; [auto|eapply repeat0_digits; eauto]. }
  destruct k as [|p|p]; unfold positional.
  - rewrite I0. unfold dec_to_f64. do 2 f_equal. change (N.of_nat (Z.to_nat 0)) with 0%N. now rewrite N.pow_0_r, N.mul_1_r.
  - rewrite I0. unfold dec_to_f64. do 2 f_equal. change (Z.to_N 0) with 0%N. rewrite N.pow_0_r, N.mul_1_r. f_equal. f_equal. lia.
  - set (f := Pos.to_nat p). set (t := N_text d) in *. set (n := length t).
    destruct (Nat.ltb_spec f n) as [L|L].
    + rewrite parse_number_frac.
      * rewrite firstn_skipn, skipn_length. fold n. unfold t. rewrite digits_N_text. do 2 f_equal. lia.
      * intro E. apply (f_equal (@length _)) in E. rewrite firstn_length in E. fold n in E. simpl in E. lia.
      * intros c H. apply D. rewrite <- (firstn_skipn (n - f) t). apply in_or_app. now left.
      * intros c H. apply D. rewrite <- (firstn_skipn (n - f) t). apply in_or_app. now right.
    + change ("0"%byte :: "."%byte :: repeat "0"%byte (f - n) ++ t) with (["0"%byte] ++ "."%byte :: (repeat "0"%byte (f - n) ++ t)).
      rewrite parse_number_frac.
      * change (["0"%byte] ++ (repeat "0"%byte (f - n) ++ t)) with (repeat "0"%byte (S (f - n)) ++ t).
        unfold t at 1. rewrite digits_N_zeros_before. rewrite app_length, repeat_length. fold n. do 2 f_equal. lia.
      * discriminate.
      * intros c [<-|[]]. reflexivity.
      * intros c H. apply in_app_or in H. destruct H; [eapply repeat0_digits; eauto|auto].
Qed.

Lemma lower1_digit : forall c, is_digit c = true -> lower1 c = c.
Proof. intros c H. destruct c; try discriminate H; reflexivity. Qed.

Lemma parse_unsigned_digit : forall neg c r, is_digit c = true -> parse_unsigned neg (c :: r) = parse_number neg (c :: r).
Proof.
  intros neg c r H. unfold parse_unsigned. change (to_lower (c :: r)) with (lower1 c :: to_lower r).
  rewrite lower1_digit by auto.
  change (lit "inf") with ["i"; "n"; "f"]%byte. change (lit "nan") with ["n"; "a"; "n"]%byte.
  change (lit "infinity") with ("i"%byte :: lit "nfinity").
  cbn [bytes_eqb]. now rewrite (digit_not c "i"), (digit_not c "n") by auto.
Qed.

Lemma parse_f64_text : forall x, f64_canonical x = true -> parse_f64 (f64_text x) = Some x.
Proof.
  intros [|[|]|neg m e] C; try reflexivity.
  unfold f64_text.
  assert (B : forall body, (exists c r, body = c :: r /\ is_digit c = true) -> parse_number neg body = Some (FFin neg m e) ->
    parse_f64 (if neg then "-"%byte :: body else body) = Some (FFin neg m e)).
  { intros body (c & r & -> & Hc) P. destruct neg.
    - unfold parse_f64. rewrite beqb_refl. now rewrite parse_unsigned_digit.
    - unfold parse_f64. rewrite (digit_not c "-"), (digit_not c "+") by auto. now rewrite parse_unsigned_digit. }
  destruct (N.eqb_spec m 0) as [->|NZ].
  - apply B.
    + exists "0"%byte, []. split; reflexivity.
    + assert (e = (-1074)%Z) as ->.
      { unfold f64_canonical in C. rewrite orb_true_iff, !andb_true_iff in C. destruct C as [[C _]|[[[_ _] C] _]].
        now apply Z.eqb_eq. apply N.leb_le in C. change (2 ^ 52)%N with 4503599627370496%N in C. lia. }
      reflexivity.
  - pose proof (shortest_reads_back (seq 1 17) neg m e (log10_floor m e) ltac:(lia) C) as R. cbv zeta in R.
    destruct (shortest (seq 1 17) neg m e (log10_floor m e)) as [d k]. cbn [fst snd] in R.
    apply B.
    + apply positional_ascii_digit.
    + rewrite parse_number_positional. now rewrite R.
Qed.

Lemma parse_f64_canonical : forall s x, parse_f64 s = Some x -> f64_canonical x = true.
Proof.
  assert (N : forall neg s x, parse_number neg s = Some x -> f64_canonical x = true).
  { intros neg s x. unfold parse_number. destruct (span_digits s) as [ip r].
    destruct (match r with [] => ([], []) | c :: r1 => if beqb c "." then span_digits r1 else ([], r) end) as [fp r'].
    destruct (ip ++ fp); try discriminate. destruct (parse_exp r'); try discriminate.
    intro H. inversion H. apply dec_to_f64_canonical. }
  assert (U : forall neg s x, parse_unsigned neg s = Some x -> f64_canonical x = true).
  { intros neg s x. unfold parse_unsigned. destruct (_ || _). intro H; inversion H; reflexivity.
    destruct (bytes_eqb _ _). intro H; inversion H; reflexivity. apply N. }
  intros s x. unfold parse_f64. destruct s as [|c s]; try discriminate.
  destruct (beqb c "-"); [apply U|]. destruct (beqb c "+"); apply U.
Qed.

Lemma positional_ascii : forall d k c, In c (positional d k) -> ascii c = true.
Proof.
  intros d k c H. unfold positional in H.
  assert (T : forall c, In c (N_text d) -> ascii c = true) by (intros; eapply digit_ascii, N_text_digits; eauto).
  assert (Z : forall n c, In c (repeat "0"%byte n) -> ascii c = true) by (intros; eapply digit_ascii, repeat0_digits; eauto).
  destruct k as [|p|p].
  - apply in_app_or in H. destruct H; eauto.
  - apply in_app_or in H. destruct H; eauto.
  - destruct (Nat.ltb _ _).
    + apply in_app_or in H. destruct H as [H|[<-|H]].
      * apply T. rewrite <- (firstn_skipn (length (N_text d) - Pos.to_nat p) (N_text d)). apply in_or_app. now left.
      * reflexivity.
      * apply T. rewrite <- (firstn_skipn (length (N_text d) - Pos.to_nat p) (N_text d)). apply in_or_app. now right.
    + destruct H as [<-|[<-|H]]; try reflexivity. apply in_app_or in H. destruct H; eauto.
Qed.

Lemma f64_text_utf8 : forall x, utf8_valid (f64_text x) = true.
Proof.
  intros [|[|]|neg m e]; try reflexivity. apply utf8_ascii. intros c H. unfold f64_text in H.
  assert (B : forall body, (forall c, In c body -> ascii c = true) -> In c (if neg then "-"%byte :: body else body) -> ascii c = true).
  { intros body Hb K. destruct neg; auto. destruct K as [<-|K]; auto. }
  destruct (N.eqb m 0).
  - eapply B; [|exact H]. intros x [<-|[]]. reflexivity.
  - destruct (shortest (seq 1 17) neg m e (log10_floor m e)) as [d k]. eapply B; [|exact H]. apply positional_ascii.
Qed.
