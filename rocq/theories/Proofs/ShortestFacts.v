(** The shortest decimal of a binary64 number: it is found among at most seventeen digits. *)
From Coq Require Import QArith Qpower Lqa Lia.
From Verif.Model Require Import Bytes IntText Float64.
From Verif.Proofs Require Import FloatFacts RoundFacts.
Open Scope Q_scope.

(** ** Rounding depends on the value only *)

Lemma ratio_cross : forall a b a' b', (0 < b)%N -> (0 < b')%N -> ratio a b == ratio a' b' -> (a * b' = a' * b)%N.
Proof.
  intros a b a' b' B B' H. apply nq_inj. rewrite !nq_mul. apply nq_pos in B. apply nq_pos in B'. unfold ratio in H.
  assert (X : nq a / nq b * (nq b * nq b') == nq a' / nq b' * (nq b * nq b')) by (rewrite H; reflexivity).
  assert (Y : nq a / nq b * (nq b * nq b') == nq a * nq b') by (field; lra). assert (Z : nq a' / nq b' * (nq b * nq b') == nq a' * nq b) by (field; lra). lra.
Qed.
Lemma round_half_even_ext : forall a b a' b', (0 < b)%N -> (0 < b')%N -> ratio a b == ratio a' b' -> round_half_even a b = round_half_even a' b'.
Proof.
  intros a b a' b' B B' H. apply ratio_cross in H; auto. unfold round_half_even.
  assert (D : a = (b * (a / b) + a mod b)%N) by (apply N.div_mod; lia). assert (M : (a mod b < b)%N) by (apply N.mod_lt; lia).
  assert (D' : a' = (b' * (a' / b') + a' mod b')%N) by (apply N.div_mod; lia). assert (M' : (a' mod b' < b')%N) by (apply N.mod_lt; lia).
  set (q := (a / b)%N) in *. set (r := (a mod b)%N) in *. set (q' := (a' / b')%N) in *. set (r' := (a' mod b')%N) in *.
  assert (E : q = q').
  { assert ((q * b) * b' <= a' * b)%N by nia. assert (a' * b < (q + 1) * b * b')%N by nia.
    assert (q' * b' * b <= a * b')%N by nia. assert (a * b' < (q' + 1) * b' * b)%N by nia.
    assert (q < q' + 1)%N. { apply N.mul_lt_mono_pos_r with (p := (b * b')%N); nia. }
    assert (q' < q + 1)%N. { apply N.mul_lt_mono_pos_r with (p := (b * b')%N); nia. } lia. }
  assert (R : (r * b' = r' * b)%N) by nia. rewrite <- E.
  assert (C : (2 * r ?= b)%N = (2 * r' ?= b')%N).
  { destruct (N.compare_spec (2 * r) b), (N.compare_spec (2 * r') b'); auto; exfalso; nia. }
  now rewrite C.
Qed.
Lemma round_ratio_ext : forall neg a b a' b', (0 < b)%N -> (0 < b')%N -> ratio a b == ratio a' b' -> round_ratio neg a b = round_ratio neg a' b'.
Proof.
  intros neg a b a' b' B B' H. pose proof (ratio_cross _ _ _ _ B B' H) as X. unfold round_ratio.
  destruct (N.eqb_spec a 0) as [->|Na]; destruct (N.eqb_spec a' 0) as [->|Na']; auto; try (exfalso; nia).
  assert (L : ratio_log2 a b = ratio_log2 a' b').
  { apply ratio_log2_eq; try lia; rewrite H; apply ratio_log2_bounds; lia. }
  rewrite L. set (e := Z.max (-1074) (ratio_log2 a' b' - 52)). destruct (scaled a b e) as [c d] eqn:S. destruct (scaled a' b' e) as [c' d'] eqn:S'.
  destruct (scaled_ratio _ _ _ _ _ B S) as [P R]. destruct (scaled_ratio _ _ _ _ _ B' S') as [P' R'].
  rewrite (round_half_even_ext c d c' d'); auto. pose proof (two_pos e) as T. assert (ratio c d * two e == ratio c' d' * two e) by (rewrite R, R'; auto).
  apply (Qmult_inj_r _ _ (two e)); auto. lra.
Qed.

(** ** Decimals *)

Definition dval (d : N) (k : Z) : Q := nq d * ten k.

Lemma dec_ratio : forall d k, exists num den, (0 < den)%N /\ ratio num den == dval d k /\ forall neg, dec_to_f64 neg d k = round_ratio neg num den.
Proof.
  intros d k. unfold dec_to_f64, dval. destruct k as [|p|p].
  - exists (d * 10 ^ Z.to_N 0)%N, 1%N. split; [lia|]. split; auto. rewrite ratio_1, nq_mul. reflexivity.
  - exists (d * 10 ^ Z.to_N (Z.pos p))%N, 1%N. split; [lia|]. split; auto. rewrite ratio_1, nq_mul, <- ten_nat, Z2N.id by lia. reflexivity.
  - exists d, (10 ^ N.pos p)%N. split; [pose proof (N.pow_nonzero 10 (N.pos p)); lia|]. split; auto. unfold ratio. rewrite <- ten_nat.
    change (Z.of_N (N.pos p)) with (Z.pos p). change (Z.neg p) with (- Z.pos p)%Z. rewrite ten_opp. reflexivity.
Qed.
Lemma over_pow10_ratio : forall m e k a b, over_pow10 m e k = (a, b) -> (0 < b)%N /\ ratio a b == mag m e / ten k.
Proof.
  intros m e k a b H. unfold over_pow10 in H.
  destruct (match e with Zneg p => (m, 2 ^ Npos p)%N | _ => (m * 2 ^ Z.to_N e, 1)%N end) as [a0 b0] eqn:E.
  assert (X : (0 < b0)%N /\ ratio a0 b0 == mag m e).
  { unfold mag. destruct e as [|p|p]; pose proof (f_equal fst E) as S1; pose proof (f_equal snd E) as S2; cbn [fst snd] in S1, S2; rewrite <- S1, <- S2.
    - split; [lia|]. rewrite ratio_1, nq_mul. reflexivity.
    - split; [lia|]. rewrite ratio_1, nq_mul, <- two_nat, Z2N.id by lia. reflexivity.
    - split; [pose proof (N.pow_nonzero 2 (N.pos p)); lia|]. unfold ratio. rewrite <- two_nat. change (Z.of_N (N.pos p)) with (Z.pos p). change (Z.neg p) with (- Z.pos p)%Z.
      rewrite two_opp. reflexivity. }
  destruct X as [P R]. rewrite <- R. unfold ratio. pose proof (nq_pos b0 P) as Pq.
  destruct k as [|p|p]; pose proof (f_equal fst H) as S1; pose proof (f_equal snd H) as S2; cbn [fst snd] in S1, S2; rewrite <- S1, <- S2.
  - split; [change (10 ^ Z.to_N 0)%N with 1%N; lia|]. change (10 ^ Z.to_N 0)%N with 1%N. rewrite N.mul_1_r. change (ten 0) with 1. field. lra.
  - pose proof (N.pow_nonzero 10 (Z.to_N (Z.pos p))) as T. split; [nia|]. rewrite (nq_mul b0). rewrite <- (ten_nat (Z.to_N (Z.pos p))), Z2N.id by lia. pose proof (ten_pos (Z.pos p)). field. split; lra.
  - split; auto. rewrite (nq_mul a0). rewrite <- ten_nat. change (Z.of_N (N.pos p)) with (Z.pos p). change (Z.neg p) with (- Z.pos p)%Z. rewrite ten_opp. pose proof (ten_pos (Z.pos p)). field. split; lra.
Qed.

Lemma strip_value : forall fuel d k, dval (fst (strip_zeros fuel d k)) (snd (strip_zeros fuel d k)) == dval d k.
Proof.
  induction fuel as [|f IH]; intros d k; cbn [strip_zeros]; [reflexivity|].
  destruct (N.eqb_spec d 0); [reflexivity|]. destruct (N.eqb_spec (d mod 10) 0) as [M|M]; [|reflexivity]. rewrite IH. unfold dval.
  assert (D : d = (10 * (d / 10))%N). { pose proof (N.div_mod d 10). lia. } rewrite D at 2. rewrite nq_mul, ten_add. change (ten 1) with (10 # 1). change (nq 10) with (10 # 1). ring.
Qed.
Lemma strip_le : forall fuel d k, (fst (strip_zeros fuel d k) <= d)%N.
Proof.
  induction fuel as [|f IH]; intros d k; cbn [strip_zeros]; [cbn; lia|].
  destruct (N.eqb_spec d 0); [cbn; lia|]. destruct (N.eqb_spec (d mod 10) 0) as [M|M]; [|cbn; lia]. specialize (IH (d / 10)%N (k + 1)%Z). pose proof (N.div_mod d 10). lia.
Qed.
Lemma strip_done : forall fuel d k, (0 < d)%N -> (d < 10 ^ N.of_nat fuel)%N -> (fst (strip_zeros fuel d k) mod 10 <> 0)%N.
Proof.
  induction fuel as [|f IH]; intros d k P H; cbn [strip_zeros]; [cbn in H; lia|].
  destruct (N.eqb_spec d 0); [lia|]. destruct (N.eqb_spec (d mod 10) 0) as [M|M]; [|exact M].
  assert (D : d = (10 * (d / 10))%N). { pose proof (N.div_mod d 10). lia. }
  apply IH; [lia|]. rewrite Nat2N.inj_succ, N.pow_succ_r' in H. lia.
Qed.

Lemma strip_exponent : forall fuel d k, (k <= snd (strip_zeros fuel d k))%Z.
Proof.
  induction fuel as [|f IH]; intros d k; cbn [strip_zeros]; [cbn; lia|].
  destruct (N.eqb_spec d 0); [cbn; lia|]. destruct (N.eqb_spec (d mod 10) 0) as [M|M]; [|cbn; lia]. specialize (IH (d / 10)%N (k + 1)%Z). lia.
Qed.

(** ** The decimal exponent *)

Lemma two_93 : forall q, (0 <= q)%Z -> two (93 * q) <= ten (28 * q).
Proof.
  intros q H. rewrite <- (Z2Nat.id q) by auto. induction (Z.to_nat q) as [|n IH]; [apply Qle_refl|].
  rewrite Nat2Z.inj_succ, !Z.mul_succ_r, two_add, ten_add. pose proof (two_pos (93 * Z.of_nat n)). pose proof (two_pos 93). 
  assert (X : two 93 <= ten 28) by (vm_compute; discriminate). nra.
Qed.
Lemma ten_31 : forall q, (0 <= q)%Z -> ten (31 * q) <= two (103 * q).
Proof.
  intros q H. rewrite <- (Z2Nat.id q) by auto. induction (Z.to_nat q) as [|n IH]; [apply Qle_refl|].
  rewrite Nat2Z.inj_succ, !Z.mul_succ_r, two_add, ten_add. pose proof (ten_pos (31 * Z.of_nat n)). pose proof (ten_pos 31).
  assert (X : ten 31 <= two 103) by (vm_compute; discriminate). nra.
Qed.
Lemma inv_le : forall a b, 0 < a -> a <= b -> / b <= / a.
Proof.
  intros a b A H. assert (B : 0 < b) by lra. setoid_replace (/ a) with (1 / a) by (unfold Qdiv; ring). apply Qle_shift_div_l; auto.
  apply (Qmult_le_compat_r _ _ (/ b)) in H; [|apply Qinv_le_0_compat; lra]. assert (NZ : ~ b == 0) by lra. rewrite (Qmult_inv_r b NZ) in H. lra.
Qed.
Lemma two_small : forall r, (0 <= r < 103)%Z -> two r <= ten (r * 30103 / 100000 + 1).
Proof.
  intros r H. assert (F : forallb (fun n => Qle_bool (two (Z.of_nat n)) (ten (Z.of_nat n * 30103 / 100000 + 1))) (seq 0 103) = true) by (vm_compute; reflexivity).
  rewrite forallb_forall in F. specialize (F (Z.to_nat r)). rewrite Z2Nat.id in F by lia. apply Qle_bool_iff. apply F. apply in_seq. lia.
Qed.
Lemma two_upper : forall l, (-1100 <= l <= 1100)%Z -> two l <= ten (l * 30103 / 100000 + 2).
Proof.
  intros l H. destruct (Z_lt_le_dec l 0) as [N|P].
  - pose proof (Z.div_mod l 103 ltac:(lia)) as D. pose proof (Z.mod_pos_bound l 103 ltac:(lia)) as R. set (q := (l / 103)%Z) in *. set (r := (l mod 103)%Z) in *.
    assert (A : two (103 * q) <= ten (31 * q)).
    { replace (103 * q)%Z with (- (103 * - q))%Z by lia. replace (31 * q)%Z with (- (31 * - q))%Z by lia. rewrite two_opp, ten_opp. apply inv_le; [apply ten_pos|]. apply ten_31. lia. }
    pose proof (two_small r R) as B. apply Qle_trans with (ten (31 * q + (r * 30103 / 100000 + 1))).
    + rewrite D, two_add, ten_add. pose proof (two_pos (103 * q)). pose proof (two_pos r). nra.
    + apply ten_le. assert (-11 <= q < 0)%Z by lia. rewrite D.
      assert (31 * q * 100000 <= 103 * q * 30103 + 8000)%Z by lia.
      pose proof (Z.div_mod (r * 30103) 100000 ltac:(lia)). pose proof (Z.mod_pos_bound (r * 30103) 100000 ltac:(lia)).
      pose proof (Z.div_mod ((103 * q + r) * 30103) 100000 ltac:(lia)). pose proof (Z.mod_pos_bound ((103 * q + r) * 30103) 100000 ltac:(lia)). lia.
  - pose proof (Z.div_mod l 93 ltac:(lia)) as D. pose proof (Z.mod_pos_bound l 93 ltac:(lia)) as R. set (q := (l / 93)%Z) in *. set (r := (l mod 93)%Z) in *.
    assert (0 <= q <= 12)%Z by lia. pose proof (two_93 q ltac:(lia)) as A.
    pose proof (two_small r ltac:(lia)) as B. apply Qle_trans with (ten (28 * q + (r * 30103 / 100000 + 1))).
    + rewrite D, two_add, ten_add. pose proof (two_pos (93 * q)). pose proof (two_pos r). nra.
    + apply ten_le. rewrite D.
      assert (28 * q * 100000 <= 93 * q * 30103 + 8000)%Z by lia.
      pose proof (Z.div_mod (r * 30103) 100000 ltac:(lia)). pose proof (Z.mod_pos_bound (r * 30103) 100000 ltac:(lia)).
      pose proof (Z.div_mod ((93 * q + r) * 30103) 100000 ltac:(lia)). pose proof (Z.mod_pos_bound ((93 * q + r) * 30103) 100000 ltac:(lia)). lia.
Qed.
Lemma two_lower : forall l, (-1090 <= l <= 1090)%Z -> ten (l * 30103 / 100000 + 2 - 19) <= two (l - 1).
Proof.
  intros l H. replace (l - 1)%Z with (- (1 - l))%Z by lia. rewrite two_opp.
  apply Qle_trans with (/ ten ((1 - l) * 30103 / 100000 + 2)); [|apply inv_le; [apply two_pos|apply two_upper; lia]]. rewrite <- ten_opp. apply ten_le.
  pose proof (Z.div_mod (l * 30103) 100000 ltac:(lia)). pose proof (Z.mod_pos_bound (l * 30103) 100000 ltac:(lia)).
  pose proof (Z.div_mod ((1 - l) * 30103) 100000 ltac:(lia)). pose proof (Z.mod_pos_bound ((1 - l) * 30103) 100000 ltac:(lia)). lia.
Qed.

Lemma mag_log2 : forall m e, (0 < m)%N -> two (Z.of_N (N.log2 m) + e) <= mag m e < two (Z.of_N (N.log2 m) + e + 1).
Proof.
  intros m e H. destruct (N.log2_spec m H) as [L U]. unfold mag. apply nq_le in L. apply nq_lt in U. pose proof (two_pos e) as T.
  replace (Z.of_N (N.log2 m) + e + 1)%Z with (Z.of_N (N.succ (N.log2 m)) + e)%Z by lia. rewrite !two_add, !two_nat. split; nra.
Qed.
Lemma log10_search_spec : forall fuel m e k, ten (k - Z.of_nat fuel) <= mag m e -> mag m e < ten (k + 1) ->
  let p := log10_search (S fuel) m e k in ten p <= mag m e /\ mag m e < ten (p + 1).
Proof.
  induction fuel as [|f IH]; intros m e k L U; remember (log10_search _ m e k) as p eqn:P; cbv zeta.
  - cbn [log10_search] in P. destruct (over_pow10 m e k) as [a b] eqn:O. destruct (over_pow10_ratio _ _ _ _ _ O) as [B R].
    replace (k - Z.of_nat 0)%Z with k in L by lia. pose proof (ten_pos k) as T.
    assert ((b <=? a)%N = true) as E. { apply N.leb_le. apply nq_le. assert (1 <= ratio a b). { rewrite R. apply Qle_shift_div_l; auto. lra. } apply ratio_ge in H; auto. lra. }
    rewrite E in P. subst p. split; auto.
  - change (p = (let '(a, b) := over_pow10 m e k in if (b <=? a)%N then k else log10_search (S f) m e (k - 1))) in P.
    destruct (over_pow10 m e k) as [a b] eqn:O. destruct (over_pow10_ratio _ _ _ _ _ O) as [B R]. pose proof (ten_pos k) as T.
    destruct (N.leb_spec b a) as [X|X].
    + subst p. split; auto. apply nq_le in X. assert (1 <= ratio a b) by (apply ratio_ge; auto; lra). rewrite R in H.
      apply (Qmult_le_compat_r _ _ (ten k)) in H; [|lra]. setoid_replace (mag m e / ten k * ten k) with (mag m e) in H by (field; lra). lra.
    + subst p. apply IH.
      * replace (k - 1 - Z.of_nat f)%Z with (k - Z.of_nat (S f))%Z by lia. auto.
      * replace (k - 1 + 1)%Z with k by lia. apply nq_lt in X. assert (ratio a b < 1) by (apply ratio_lt; auto; lra). rewrite R in H.
        apply Qnot_le_lt. intro Y. assert (1 <= mag m e / ten k) by (apply Qle_shift_div_l; auto; lra). lra.
Qed.
Lemma log10_floor_spec : forall neg m e, (0 < m)%N -> f64_canonical (FFin neg m e) = true ->
  ten (log10_floor m e) <= mag m e /\ mag m e < ten (log10_floor m e + 1).
Proof.
  intros neg m e Hm C. unfold log10_floor. destruct (mag_log2 m e Hm) as [L U].
  assert (R : (-1090 <= Z.of_N (N.log2 m) + e + 1 <= 1090)%Z).
  { assert (N.log2 m < 53)%N. { apply N.log2_lt_pow2; auto. destruct (canonical_cases _ _ _ C) as [[_ X]|[_ X]]; lia. }
    destruct (canonical_cases _ _ _ C) as [[-> X]|[X _]]; lia. }
  set (l := (Z.of_N (N.log2 m) + e + 1)%Z) in *. apply (log10_search_spec 19).
  - pose proof (two_lower l R) as X. replace (l - 1)%Z with (Z.of_N (N.log2 m) + e)%Z in X by lia.
    change (Z.of_nat 19) with 19%Z. lra.
  - pose proof (two_upper l ltac:(lia)) as X. pose proof (ten_le (l * 30103 / 100000 + 2) (l * 30103 / 100000 + 2 + 1) ltac:(lia)). lra.
Qed.

(** ** Candidates *)

Section Digits.
  Context (neg : bool) (m : N) (e : Z) (Hm : (0 < m)%N) (C : f64_canonical (FFin neg m e) = true).
  Let p := log10_floor m e.

  Lemma mag_53 : mag m e < two 53 * two e.
  Proof.
    unfold mag. assert (X : (m < 2 ^ 53)%N) by (destruct (canonical_cases _ _ _ C) as [[_ X]|[_ X]]; lia). apply nq_lt in X. change (nq (2 ^ 53)) with (two 53) in X. pose proof (two_pos e). nra.
  Qed.

  (** The two candidates and the number between them. *)
  Lemma candidates_around : forall n, exists lo, (nq lo * ten (p - Z.of_nat n + 1) <= mag m e) /\ (mag m e < (nq lo + 1) * ten (p - Z.of_nat n + 1))
    /\ exists c1 c2, candidates m e p n = [c1; c2]
      /\ ((c1 = strip_zeros 20 lo (p - Z.of_nat n + 1) /\ c2 = strip_zeros 20 (lo + 1) (p - Z.of_nat n + 1)
           /\ mag m e <= (nq lo + (1 # 2)) * ten (p - Z.of_nat n + 1))
          \/ (c2 = strip_zeros 20 lo (p - Z.of_nat n + 1) /\ c1 = strip_zeros 20 (lo + 1) (p - Z.of_nat n + 1)
           /\ (nq lo + (1 # 2)) * ten (p - Z.of_nat n + 1) <= mag m e)).
  Proof.
    intro n. unfold candidates. set (k := (p - Z.of_nat n + 1)%Z). destruct (over_pow10 m e k) as [a b] eqn:O. destruct (over_pow10_ratio _ _ _ _ _ O) as [B R].
    assert (D : a = (b * (a / b) + a mod b)%N) by (apply N.div_mod; lia). assert (M : (a mod b < b)%N) by (apply N.mod_lt; lia).
    set (lo := (a / b)%N) in *. set (r := (a mod b)%N) in *. pose proof (ten_pos k) as T. pose proof (nq_pos b B) as Pb. pose proof (nq_nonneg r) as Pr. apply nq_lt in M.
    assert (E : nq a == nq b * nq lo + nq r). { rewrite D at 1. rewrite nq_add, nq_mul. reflexivity. }
    assert (V : mag m e == ratio a b * ten k). { rewrite R. field. lra. }
    assert (V' : ratio a b == nq lo + nq r / nq b). { unfold ratio. rewrite E. field. lra. }
    assert (F0 : 0 <= nq r / nq b) by (apply Qle_shift_div_l; auto; lra). assert (F1 : nq r / nq b < 1) by (apply Qlt_shift_div_r; auto; lra).
    set (f := nq r / nq b) in *.
    exists lo. rewrite V, V'. split; [nra|]. split; [nra|].
    destruct (N.leb_spec (2 * r) b) as [X|X].
    - exists (strip_zeros 20 lo k), (strip_zeros 20 (lo + 1) k). split; auto. left. split; auto. split; auto. apply nq_le in X. rewrite nq_mul in X. change (nq 2) with 2 in X.
      assert (f <= 1 # 2) by (apply Qle_shift_div_r; auto; lra). rewrite V, V'. nra.
    - exists (strip_zeros 20 (lo + 1) k), (strip_zeros 20 lo k). split; auto. right. split; auto. split; auto. apply nq_lt in X. rewrite nq_mul in X. change (nq 2) with 2 in X.
      assert (1 # 2 <= f) by (apply Qle_shift_div_l; auto; lra). rewrite V, V'. nra.
  Qed.

  (** A decimal close to the number reads back. *)
  Lemma near_reads_back : forall d k, mag m e - (if (m =? 2 ^ 52)%N then 1 # 4 else 1 # 2) * two e < dval d k -> dval d k < mag m e + (1 # 2) * two e ->
    reads_back neg m e (d, k) = true.
  Proof.
    intros d k L U. unfold reads_back. cbn [fst snd]. apply f64_eqb_eq. destruct (dec_ratio d k) as (num & den & P & R & ->). apply round_ratio_near; auto; now rewrite R.
  Qed.

  Lemma seventeen_first : exists c1 c2, candidates m e p 17 = [c1; c2] /\ reads_back neg m e c1 = true /\ dval (fst c1) (snd c1) <= mag m e + (1 # 2) * ten (p - 16).
  Proof.
    destruct (candidates_around 17) as (lo & L & U & c1 & c2 & E & H). exists c1, c2. split; auto. replace (p - 16)%Z with (p - 17 + 1)%Z by lia. change (Z.of_nat 17) with 17%Z in *. set (k := (p - 17 + 1)%Z) in *.
    destruct (log10_floor_spec neg m e Hm C) as [PL _]. fold p in PL.
    assert (TK : ten k * (10000000000000000 # 1) <= mag m e).
    { replace p with (k + 16)%Z in PL by (unfold k; lia). rewrite ten_add in PL. change (ten 16) with (10000000000000000 # 1) in PL. exact PL. }
    pose proof mag_53 as M53. change (two 53) with (9007199254740992 # 1) in M53. pose proof (ten_pos k) as T. pose proof (two_pos e) as T2.
    assert (GAP : (1 # 2) * ten k < (if (m =? 2 ^ 52)%N then 1 # 4 else 1 # 2) * two e).
    { destruct (N.eqb_spec m (2 ^ 52)) as [X|X].
      - assert (Y : mag m e == (4503599627370496 # 1) * two e). { unfold mag. rewrite X. reflexivity. } lra.
      - lra. }
    assert (G2 : (if (m =? 2 ^ 52)%N then 1 # 4 else 1 # 2) <= 1 # 2) by (destruct (m =? 2 ^ 52)%N; lra). set (h := if (m =? 2 ^ 52)%N then 1 # 4 else 1 # 2) in *.
    assert (G3 : h * two e <= (1 # 2) * two e) by nra.
    destruct H as [(-> & _ & H)|(_ & -> & H)].
    - split; [rewrite (surjective_pairing (strip_zeros 20 lo k)); apply near_reads_back; fold h|]; rewrite strip_value; unfold dval; lra.
    - split; [rewrite (surjective_pairing (strip_zeros 20 (lo + 1) k)); apply near_reads_back; fold h|]; rewrite strip_value; unfold dval; rewrite nq_add; change (nq 1) with 1; lra.
  Qed.
  Lemma seventeen : find (reads_back neg m e) (candidates m e p 17) <> None.
  Proof. destruct seventeen_first as (c1 & c2 & -> & R & _). cbn [find]. rewrite R. discriminate. Qed.

  (** Candidates have at most [n] digits and do not end with a zero. *)
  Lemma candidate_digits : forall n c, (1 <= n <= 17)%nat -> In c (candidates m e p n) -> (fst c < 10 ^ N.of_nat n)%N /\ ((0 < fst c)%N -> (fst c mod 10 <> 0)%N).
  Proof.
    intros n c Hn H. destruct (candidates_around n) as (lo & L & U & c1 & c2 & E & X). rewrite E in H. clear E. set (k := (p - Z.of_nat n + 1)%Z) in *.
    destruct (log10_floor_spec neg m e Hm C) as [_ PU]. fold p in PU.
    assert (LO : (lo + 1 <= 10 ^ N.of_nat n)%N).
    { assert (lo < 10 ^ N.of_nat n)%N; [|lia]. apply nq_lt. rewrite <- ten_nat. replace (p + 1)%Z with (k + Z.of_N (N.of_nat n))%Z in PU by lia. rewrite ten_add in PU. pose proof (ten_pos k) as T. nra. }
    assert (P20 : (10 ^ N.of_nat n < 10 ^ N.of_nat 20)%N) by (apply N.pow_lt_mono_r; lia).
    assert (G : forall d, (d <= 10 ^ N.of_nat n)%N -> (fst (strip_zeros 20 d k) < 10 ^ N.of_nat n)%N /\ ((0 < fst (strip_zeros 20 d k))%N -> (fst (strip_zeros 20 d k) mod 10 <> 0)%N)).
    { intros d D. destruct (N.eq_dec d 0) as [->|D0]. { cbn. split; [pose proof (N.pow_nonzero 10 (N.of_nat n)); lia|lia]. }
      pose proof (strip_done 20 d k ltac:(lia) ltac:(lia)) as S. split; auto. pose proof (strip_le 20 d k). destruct (N.eq_dec (fst (strip_zeros 20 d k)) (10 ^ N.of_nat n)) as [Y|Y]; [|lia].
      exfalso. apply S. rewrite Y. replace (N.of_nat n) with (N.succ (N.of_nat (n - 1))) by lia. rewrite N.pow_succ_r', N.mul_comm. apply N.mod_mul. lia. }
    destruct X as [(-> & -> & _)|(-> & -> & _)]; destruct H as [<-|[<-|[]]]; apply G; lia.
  Qed.

  (** What the search finds. *)
  Lemma shortest_found : forall ns, In 17%nat ns -> (forall n, In n ns -> (1 <= n <= 17)%nat) -> exists n, In n ns
    /\ find (reads_back neg m e) (candidates m e p n) = Some (shortest ns neg m e p)
    /\ exists a b, ns = a ++ n :: b /\ forall x, In x a -> find (reads_back neg m e) (candidates m e p x) = None.
  Proof.
    induction ns as [|n ns IH]; intros I R; [destruct I|]. cbn [shortest].
    destruct (find (reads_back neg m e) (candidates m e p n)) as [c|] eqn:F.
    - exists n. split; [now left|]. split; auto. exists [], ns. split; auto. intros x [].
    - destruct I as [->|I]; [destruct (seventeen F)|]. destruct IH as (x & A & B & a & b & E & G); auto. { intros y Hy. apply R. now right. }
      exists x. split; [now right|]. split; auto. exists (n :: a), b. split; [rewrite E; reflexivity|]. intros y [<-|Hy]; auto.
  Qed.

  Lemma shortest_digits : let '(d, k) := shortest (seq 1 17) neg m e p in (0 < d < 10 ^ 17)%N /\ (d mod 10 <> 0)%N.
  Proof.
    destruct (shortest_found (seq 1 17)) as (n & I & F & _). { apply in_seq. lia. } { intros n H. apply in_seq in H. lia. }
    pose proof (shortest_reads_back (seq 1 17) neg m e p Hm C) as RB. destruct (shortest (seq 1 17) neg m e p) as [d k] eqn:S. cbv zeta in RB. cbn [fst snd] in RB.
    assert (D0 : (0 < d)%N). { destruct d; [|lia]. exfalso. destruct (dec_ratio 0 k) as (num & den & P & R & Q). rewrite Q in RB. unfold dval in R. change (nq 0) with 0 in R.
      assert (num = 0%N). { pose proof (ratio_cross num den 0 1 P ltac:(lia)) as X. rewrite ratio_1 in X. change (nq 0) with 0 in X. specialize (X ltac:(lra)). lia. }
      subst num. cbn in RB. inversion RB. subst m. lia. }
    apply in_seq in I. apply find_some in F. destruct F as [F _]. destruct (candidate_digits n (d, k) ltac:(lia) F) as [A B]. cbn [fst] in A, B. split; auto. split; auto.
    eapply N.lt_le_trans; [exact A|]. apply N.pow_le_mono_r; lia.
  Qed.

  (** The exponent; with seventeen digits the nearest decimal is taken. *)
  Lemma shortest_exponent : let '(d, k) := shortest (seq 1 17) neg m e p in (p - 16 <= k)%Z /\ (k = (p - 16)%Z -> dval d k <= mag m e + (1 # 2) * ten (p - 16)).
  Proof.
    destruct (shortest_found (seq 1 17)) as (n & I & F & _). { apply in_seq. lia. } { intros n H. apply in_seq in H. lia. }
    destruct (shortest (seq 1 17) neg m e p) as [d k] eqn:S. apply in_seq in I.
    assert (K : (p - Z.of_nat n + 1 <= k)%Z).
    { apply find_some in F. destruct F as [F _]. destruct (candidates_around n) as (lo & _ & _ & c1 & c2 & E & X). rewrite E in F.
      assert (G : forall q, (d, k) = strip_zeros 20 q (p - Z.of_nat n + 1) -> (p - Z.of_nat n + 1 <= k)%Z).
      { intros q H. pose proof (strip_exponent 20 q (p - Z.of_nat n + 1)). rewrite <- H in H0. exact H0. }
      destruct X as [(-> & -> & _)|(-> & -> & _)]; destruct F as [F|[F|[]]]; symmetry in F; eauto. }
    split; [lia|]. intro E. assert (n = 17)%nat as -> by lia. destruct seventeen_first as (c1 & c2 & H & R & V). rewrite H in F. cbn [find] in F. rewrite R in F. inversion F. subst c1. exact V.
  Qed.

  (** If a decimal of at most fifteen digits reads as this number, the search finds that decimal. *)
  Lemma fifteen : forall d k, (0 < d < 10 ^ 15)%N -> dec_to_f64 neg d k = FFin neg m e -> (-1022 <= Z.of_N (N.log2 m) + e)%Z ->
    let '(d', k') := shortest (seq 1 17) neg m e p in dval d' k' == dval d k /\ (d' < 10 ^ 15)%N.
  Proof.
    intros d k D RB NORM.
    (* close: both decimals are within half a unit of the last place *)
    assert (CL : forall d0 k0, dec_to_f64 neg d0 k0 = FFin neg m e -> mag m e - (1 # 2) * two e <= dval d0 k0 <= mag m e + (1 # 2) * two e).
    { intros d0 k0 H. destruct (dec_ratio d0 k0) as (num & den & P & R & Q). rewrite Q in H. pose proof (round_ratio_error neg num den m e P H). rewrite R in H0. exact H0. }
    pose proof (CL d k RB) as [DL DU].
    destruct (log10_floor_spec neg m e Hm C) as [PL PU]. fold p in PL, PU.
    assert (ULP : two 52 * two e <= mag m e).
    { unfold mag. destruct (canonical_cases _ _ _ C) as [[-> X]|[_ X]].
      - assert (52 <= N.log2 m)%N by lia. destruct (N.log2_spec m Hm) as [Y _]. assert (2 ^ 52 <= m)%N by (eapply N.le_trans; [|exact Y]; apply N.pow_le_mono_r; lia).
        apply nq_le in H0. change (nq (2 ^ 52)) with (two 52) in H0. pose proof (two_pos (-1074)). nra.
      - assert (X' : (2 ^ 52 <= m)%N) by lia. apply nq_le in X'. change (nq (2 ^ 52)) with (two 52) in X'. pose proof (two_pos e). nra. }
    change (two 52) with (4503599627370496 # 1) in ULP. pose proof (two_pos e) as Te.
    set (g := (p - 14)%Z). pose proof (ten_pos g) as Tg.
    assert (PG : ten (p + 1) == ten g * (1000000000000000 # 1)). { replace (p + 1)%Z with (g + 15)%Z by (unfold g; lia). rewrite ten_add. reflexivity. }
    assert (PP : ten p == ten g * (100000000000000 # 1)). { replace p with (g + 14)%Z by (unfold g; lia). rewrite ten_add. reflexivity. }
    assert (SM : two e < ten g * (1 # 4)) by lra.
    (* the decimal is a multiple of 10^g *)
    assert (GRID : forall d0 k0, (0 < d0 < 10 ^ 15)%N -> mag m e - (1 # 2) * two e <= dval d0 k0 -> exists j, dval d0 k0 == nq j * ten g).
    { intros d0 k0 D0 L0. destruct (Z_lt_le_dec k0 g) as [K|K].
      - exfalso. unfold dval in L0. assert (X : (d0 + 1 <= 10 ^ 15)%N) by lia. apply nq_le in X. rewrite nq_add in X. change (nq 1) with 1 in X. change (nq (10 ^ 15)) with (1000000000000000 # 1) in X.
        assert (Y : ten k0 * (10 # 1) <= ten g). { change (10 # 1) with (ten 1). rewrite <- ten_add. apply ten_le. lia. } pose proof (ten_pos k0). pose proof (nq_nonneg d0). nra.
      - exists (d0 * 10 ^ Z.to_N (k0 - g))%N. unfold dval. rewrite nq_mul, <- ten_nat, Z2N.id by lia. replace k0 with ((k0 - g) + g)%Z at 1 by lia. rewrite ten_add. ring. }
    destruct (GRID d k D DL) as (j & J).
    assert (SAME : forall d0 k0, (0 < d0 < 10 ^ 15)%N -> dec_to_f64 neg d0 k0 = FFin neg m e -> dval d0 k0 == dval d k).
    { intros d0 k0 D0 R0. destruct (CL d0 k0 R0) as [L0 U0]. destruct (GRID d0 k0 D0 L0) as (j0 & J0). rewrite J, J0 in *.
      assert (j0 = j); [|now subst j0]. assert (nq j0 < nq j + 1) by nra. assert (nq j < nq j0 + 1) by nra.
      assert (A : nq j0 < nq (j + 1)) by (rewrite nq_add; auto). assert (B : nq j < nq (j0 + 1)) by (rewrite nq_add; auto). apply nq_lt in A. apply nq_lt in B. lia. }
    (* it is found at the latest with fifteen digits *)
    assert (F15 : find (reads_back neg m e) (candidates m e p 15) <> None).
    { destruct (candidates_around 15) as (lo & L & U & c1 & c2 & E & X). rewrite E. change (p - Z.of_nat 15 + 1)%Z with (p - 15 + 1)%Z in *. replace (p - 15 + 1)%Z with g in * by (unfold g; lia).
      assert (JJ : j = lo \/ j = (lo + 1)%N).
      { rewrite J in DL, DU. assert (A : nq j < nq lo + 1 + 1) by nra. assert (B : nq lo < nq j + 1) by nra.
        assert (A' : nq j < nq (lo + 1 + 1)) by (rewrite !nq_add; auto). assert (B' : nq lo < nq (j + 1)) by (rewrite nq_add; auto). apply nq_lt in A'. apply nq_lt in B'. lia. }
      assert (RC : forall q, q = j -> reads_back neg m e (strip_zeros 20 q g) = true).
      { intros q ->. unfold reads_back. apply f64_eqb_eq. destruct (dec_ratio (fst (strip_zeros 20 j g)) (snd (strip_zeros 20 j g))) as (num & den & P & R & Q). rewrite Q.
        destruct (dec_ratio d k) as (num' & den' & P' & R' & Q'). rewrite Q' in RB. rewrite <- RB. apply round_ratio_ext; auto. rewrite R, R', strip_value, J. reflexivity. }
      assert (IN : exists c, In c [c1; c2] /\ reads_back neg m e c = true).
      { destruct X as [(-> & -> & _)|(-> & -> & _)]; destruct JJ as [JJ|JJ]; subst j; eexists; (split; [|apply RC; reflexivity]); cbn; auto. }
      intro N. destruct IN as (c & I & R). pose proof (find_none _ _ N c I). congruence. }
    destruct (shortest_found (seq 1 17)) as (n & I & F & a & b & AB & NF). { apply in_seq. lia. } { intros n H. apply in_seq in H. lia. }
    pose proof shortest_digits as SD. pose proof (shortest_reads_back (seq 1 17) neg m e p Hm C) as SR. cbv zeta in SR.
    destruct (shortest (seq 1 17) neg m e p) as [d' k']. cbn [fst snd] in SR.
    assert (N15 : (n <= 15)%nat).
    { destruct (Nat.le_gt_cases n 15) as [|G]; auto. exfalso. apply F15, NF.
      assert (X : In 15%nat (a ++ n :: b)) by (rewrite <- AB; apply in_seq; lia). apply in_app_or in X. destruct X as [X|[X|X]]; auto; [lia|].
      assert (In n (seq 1 17)) by (rewrite AB; apply in_or_app; right; now left). apply in_seq in H.
      assert (n = 16 \/ n = 17)%nat as [-> | ->] by lia.
      - assert (length a = 15)%nat.
        { assert (W : nth_error (seq 1 17) (length a) = Some 16%nat) by (rewrite AB, nth_error_app2, Nat.sub_diag; auto).
          assert (LA : (length a < 17)%nat) by (pose proof (f_equal (@length nat) AB) as K; rewrite seq_length, app_length in K; cbn in K; lia).
          do 17 (destruct a as [|? a]; [cbn in W; try discriminate W; reflexivity|]). cbn in LA. lia. }
        do 15 (destruct a as [|? a]; [discriminate H0|]). destruct a; [|discriminate H0]. cbn in AB. injection AB. intros. subst b. destruct X as [X|[]]. discriminate X.
      - assert (length a = 16)%nat.
        { assert (W : nth_error (seq 1 17) (length a) = Some 17%nat) by (rewrite AB, nth_error_app2, Nat.sub_diag; auto).
          assert (LA : (length a < 17)%nat) by (pose proof (f_equal (@length nat) AB) as K; rewrite seq_length, app_length in K; cbn in K; lia).
          do 17 (destruct a as [|? a]; [cbn in W; try discriminate W; reflexivity|]). cbn in LA. lia. }
        do 16 (destruct a as [|? a]; [discriminate H0|]). destruct a; [|discriminate H0]. cbn in AB. injection AB. intros. subst b. destruct X. }
    apply in_seq in I. apply find_some in F. destruct F as [F _]. destruct (candidate_digits n (d', k') ltac:(lia) F) as [A _]. cbn [fst] in A.
    assert (D15 : (d' < 10 ^ 15)%N). { eapply N.lt_le_trans; [exact A|]. apply N.pow_le_mono_r; lia. }
    split; auto. apply SAME; auto. destruct SD. lia.
  Qed.
End Digits.
