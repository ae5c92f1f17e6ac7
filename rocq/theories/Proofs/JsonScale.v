(** serde_json can read every float it has written, and reads those with few digits exactly. *)
From Coq Require Import QArith Qpower Lqa Lia.
From Verif.Model Require Import Json.
From Verif.Proofs Require Import BytesFacts IntFacts FloatFacts RoundFacts ShortestFacts JsonFloat.
Open Scope Q_scope.

(** * Arithmetic of floats *)

Lemma as_ratio_value : forall m e a b, as_ratio m e = (a, b) -> (0 < b)%N /\ ratio a b == mag m e.
Proof.
  intros m e a b H. unfold as_ratio in H. unfold mag.
  destruct e as [|p|p]; pose proof (f_equal fst H) as S1; pose proof (f_equal snd H) as S2; cbn [fst snd] in S1, S2; rewrite <- S1, <- S2.
  - split; [lia|]. rewrite ratio_1, nq_mul. reflexivity.
  - split; [lia|]. rewrite ratio_1, nq_mul, <- two_nat, Z2N.id by lia. reflexivity.
  - split; [pose proof (N.pow_nonzero 2 (N.pos p)); lia|]. unfold ratio. rewrite <- two_nat. change (Z.of_N (N.pos p)) with (Z.pos p). change (Z.neg p) with (- Z.pos p)%Z.
    rewrite two_opp. reflexivity.
Qed.
Lemma mag_mul : forall m e m' e', mag (m * m') (e + e') == mag m e * mag m' e'.
Proof. intros. unfold mag. rewrite nq_mul, two_add. ring. Qed.
Lemma mul_value : forall m e m' e', exists num den, (0 < den)%N /\ ratio num den == mag m e * mag m' e' /\ mul_f64 (FFin false m e) (FFin false m' e') = round_ratio false num den.
Proof.
  intros. cbn [mul_f64 xorb]. destruct (as_ratio (m * m') (e + e')) as [a b] eqn:E. destruct (as_ratio_value _ _ _ _ E) as [B R]. exists a, b. split; auto. split; auto. rewrite R. apply mag_mul.
Qed.
Lemma div_value : forall m e m' e', (0 < m')%N -> exists num den, (0 < den)%N /\ ratio num den == mag m e / mag m' e' /\ div_f64 (FFin false m e) (FFin false m' e') = round_ratio false num den.
Proof.
  intros m e m' e' H. cbn [div_f64 xorb]. destruct (as_ratio m (e - e')) as [a b] eqn:E. destruct (as_ratio_value _ _ _ _ E) as [B R]. exists a, (b * m')%N. split; [nia|]. split; auto.
  pose proof (nq_pos m' H) as P. pose proof (nq_pos b B) as Pb. pose proof (two_pos e') as T.
  assert (X : ratio a (b * m') == ratio a b / nq m'). { unfold ratio. rewrite nq_mul. field. split; lra. }
  rewrite X, R. unfold mag. replace (e - e')%Z with (e + - e')%Z by lia. rewrite two_add, two_opp. field. split; lra.
Qed.

Lemma mag_pos : forall m e, (0 < m)%N -> 0 < mag m e.
Proof. intros m e H. apply nq_pos in H. pose proof (two_pos e). unfold mag. nra. Qed.
Lemma mag_nonneg : forall m e, 0 <= mag m e.
Proof. intros m e. pose proof (nq_nonneg m). pose proof (two_pos e). unfold mag. nra. Qed.
Lemma mag_0 : forall e, mag 0 e == 0.
Proof. intro e. unfold mag. change (nq 0) with 0. ring. Qed.
Lemma mag_ge : forall m e, (1 <= m)%N -> two e <= mag m e.
Proof. intros m e H. apply nq_le in H. change (nq 1) with 1 in H. pose proof (two_pos e). unfold mag. nra. Qed.

Definition threshold : Q := (two 53 - (1 # 2)) * two 971.

(** Powers of ten. *)
Lemma pow10_finite : forall k, (0 <= k <= 308)%Z -> exists m e, pow10_f64 (Z.to_N k) = FFin false m e /\ (0 < m)%N /\ 1 <= mag m e <= ten k * (1 + two (-53)) /\ f64_canonical (FFin false m e) = true.
Proof.
  intros k K. unfold pow10_f64. assert (R : ratio (10 ^ Z.to_N k) 1 == ten k). { rewrite ratio_1, <- ten_nat, Z2N.id by lia. reflexivity. }
  destruct (round_ratio_finite false (10 ^ Z.to_N k) 1 ltac:(lia)) as (m & e & E).
  { rewrite R. apply Qle_lt_trans with (ten 308); [apply ten_le; lia|]. vm_compute. reflexivity. }
  exists m, e. split; auto. pose proof (round_ratio_relative false _ 1 m e ltac:(lia) ltac:(rewrite R; apply ten_ge1; lia) E) as [A B]. rewrite R in A.
  split; [|split; [split; auto|rewrite <- E; apply round_ratio_canonical; lia]]. destruct m; [|lia]. rewrite mag_0 in B. lra.
Qed.
Lemma pow10_308 : exists m e, pow10_f64 308 = FFin false m e /\ (0 < m)%N /\ 2 <= mag m e.
Proof.
  destruct (pow10_finite 308 ltac:(lia)) as (m & e & E & P & _ & C). exists m, e. split; [exact E|]. split; auto. destruct (round_ratio_error false (10 ^ 308) 1 m e ltac:(lia) E) as [_ U].
  rewrite ratio_1 in U. pose proof (mag_ge m e ltac:(lia)) as G. assert (X : 4 <= nq (10 ^ 308)). { change 4 with (nq 4). apply nq_le. vm_compute. discriminate. } lra.
Qed.

(** A quotient of at most [2^66]. *)
Lemma small_finite : forall num den, (0 < den)%N -> ratio num den <= two 66 ->
  exists m e, round_ratio false num den = FFin false m e /\ f64_canonical (FFin false m e) = true /\ mag m e <= 2 * ratio num den.
Proof.
  intros num den D L. destruct (round_ratio_finite false num den D) as (m & e & E).
  { eapply Qle_lt_trans; [exact L|]. unfold threshold. vm_compute. reflexivity. }
  exists m, e. split; auto. split; [rewrite <- E; now apply round_ratio_canonical|]. destruct (round_ratio_error false num den m e D E) as [A _].
  destruct (N.eq_dec m 0) as [->|N]. { rewrite mag_0 in *. assert (0 <= ratio num den) by (unfold ratio; apply Qle_shift_div_l; [now apply nq_pos|]; pose proof (nq_nonneg num); lra). lra. }
  pose proof (mag_ge m e ltac:(lia)). lra.
Qed.
Lemma scale_down : forall fuel m e k, (k < 0)%Z -> f64_canonical (FFin false m e) = true -> mag m e <= two 66 ->
  exists m' e', scale_f64 fuel (FFin false m e) k = Ok (FFin false m' e') /\ f64_canonical (FFin false m' e') = true.
Proof.
  induction fuel as [|f IH]; intros m e k K C L; cbn [scale_f64].
  - assert (G : (0 <=? k)%Z = false) by (apply Z.leb_gt; lia). rewrite G. destruct (Z.leb_spec (Z.abs k) 308) as [A|A].
    + destruct (pow10_finite (- k) ltac:(lia)) as (mp & ep & E & P & [B _] & _). rewrite E. destruct (div_value m e mp ep P) as (num & den & D & R & ->).
      destruct (small_finite num den D) as (m' & e' & -> & C' & _); eauto. rewrite R. apply Qle_shift_div_r; [lra|]. pose proof (mag_nonneg m e). pose proof (two_pos 66). nra.
    + destruct (is_zero _); eauto.
  - assert (G : (0 <=? k)%Z = false) by (apply Z.leb_gt; lia). rewrite G. destruct (Z.leb_spec (Z.abs k) 308) as [A|A].
    + destruct (pow10_finite (- k) ltac:(lia)) as (mp & ep & E & P & [B _] & _). rewrite E. destruct (div_value m e mp ep P) as (num & den & D & R & ->).
      destruct (small_finite num den D) as (m' & e' & -> & C' & _); eauto. rewrite R. apply Qle_shift_div_r; [lra|]. pose proof (mag_nonneg m e). pose proof (two_pos 66). nra.
    + destruct (is_zero _); eauto. destruct pow10_308 as (mp & ep & E & P & B). rewrite E. destruct (div_value m e mp ep P) as (num & den & D & R & ->).
      assert (Q : ratio num den <= mag m e * (1 # 2)). { rewrite R. apply Qle_shift_div_r; [lra|]. pose proof (mag_nonneg m e). nra. }
      pose proof (mag_nonneg m e) as MN. pose proof (two_pos 66) as T66.
      destruct (small_finite num den D ltac:(lra)) as (m' & e' & -> & C' & U). destruct (Z_lt_le_dec (k + 308) 0) as [X|X]; [|lia]. apply IH; auto. lra.
Qed.

(** u64 as f64. *)
Lemma u64_float : forall n, (0 < n <= u64_limit)%N -> exists m e, u64_to_f64 n = FFin false m e /\ f64_canonical (FFin false m e) = true /\ (0 < m)%N
  /\ mag m e <= two 66 /\ mag m e <= nq n * (1 + two (-53)).
Proof.
  intros n [L H]. unfold u64_to_f64. apply nq_le in H. assert (G : 1 <= nq n). { change 1 with (nq 1). apply nq_le. lia. }
  assert (T : nq u64_limit <= two 64) by (vm_compute; discriminate).
  destruct (small_finite n 1 ltac:(lia)) as (m & e & E & C & U). { rewrite ratio_1. assert (two 64 <= two 66) by (apply two_le; lia). lra. }
  destruct (round_ratio_relative false n 1 m e ltac:(lia) ltac:(rewrite ratio_1; auto) E) as [A B]. rewrite ratio_1 in A, U. exists m, e. split; auto. split; auto.
  split; [destruct m; [rewrite mag_0 in B; lra|lia]|]. split; auto. assert (two 66 == 4 * two 64) by reflexivity. pose proof (two_pos 64). lra.
Qed.

(** * Multiplication does not overflow *)

Lemma product_ok : forall m e k, (0 <= k <= 308)%Z -> (exists mp ep, pow10_f64 (Z.to_N k) = FFin false mp ep /\ (0 < mp)%N /\ mag m e * mag mp ep < threshold) -> forall fuel,
  exists m' e', scale_f64 fuel (FFin false m e) k = Ok (FFin false m' e') /\ f64_canonical (FFin false m' e') = true.
Proof.
  intros m e k K (mp & ep & E & P & L) fuel.
  assert (S : scale_f64 fuel (FFin false m e) k = (let y := mul_f64 (FFin false m e) (pow10_f64 (Z.to_N k)) in if f64_finite y then Ok y else json_fail)).
  { destruct fuel; cbn [scale_f64]; destruct (Z.leb_spec (Z.abs k) 308); try lia; destruct (Z.leb_spec 0 k); try lia; reflexivity. }
  rewrite S, E. destruct (mul_value m e mp ep) as (num & den & D & R & ->). destruct (round_ratio_finite false num den D) as (m' & e' & X). { rewrite R. exact L. }
  rewrite X. cbv zeta. cbn [f64_finite]. exists m', e'. split; auto. rewrite <- X. now apply round_ratio_canonical.
Qed.

Section Top.
  (** The largest seventeen-digit significand that is tried, times 1e292. *)
  Lemma pow10_292 : exists m e, pow10_f64 292 = FFin false m e /\ (0 < m)%N /\ (17976931348623156 # 1) * mag m e < threshold.
  Proof.
    destruct (pow10_finite 292 ltac:(lia)) as (m & e & E & P & _ & _). exists m, e. split; [exact E|]. split; auto. change (Z.to_N 292) with 292%N in E.
    assert (V : pow10_f64 292 = FFin false 4512985939662074 918) by (vm_compute; reflexivity). rewrite V in E. inversion E. subst. vm_compute. reflexivity.
  Qed.
  Definition top_ok (k : N) : bool :=
    match pow10_f64 k with
    | FFin false m e => (0 <? m)%N && (((2 ^ 54 - 1) * 2 ^ 970 / 10 ^ k) * m * 2 ^ Z.to_N e <? (2 ^ 54 - 1) * 2 ^ 970)%N && (0 <=? e)%Z
    | _ => false
    end.
  Lemma tops : forallb top_ok (map N.of_nat (seq 293 16)) = true.
  Proof. vm_compute. reflexivity. Qed.
End Top.

(** Integers with at most 53 significant bits are represented exactly. *)
Lemma exact_float : forall neg c j, (0 < c < 2 ^ 53)%N -> (0 <= j <= 900)%Z -> exists m e, f64_canonical (FFin neg m e) = true /\ (0 < m)%N /\ mag m e == nq c * two j
  /\ forall num den, (0 < den)%N -> ratio num den == nq c * two j -> round_ratio neg num den = FFin neg m e.
Proof.
  intros neg c j [P B] J. destruct (N.log2_spec c P) as [L U]. set (l := N.log2 c) in *.
  assert (L52 : (l <= 52)%N). { assert (l < 53)%N; [apply N.log2_lt_pow2; auto|lia]. }
  exists (c * 2 ^ (52 - l))%N, (Z.of_N l - 52 + j)%Z.
  assert (P2 : (2 ^ (52 - l) * 2 ^ l = 2 ^ 52)%N) by (rewrite <- N.pow_add_r; f_equal; lia).
  assert (P3 : (2 ^ (52 - l) * 2 ^ N.succ l = 2 ^ 53)%N) by (rewrite <- N.pow_add_r; f_equal; lia).
  assert (X1 : (2 ^ 52 <= c * 2 ^ (52 - l))%N) by nia. assert (X2 : (c * 2 ^ (52 - l) < 2 ^ 53)%N) by (pose proof (N.pow_nonzero 2 (52 - l)); nia).
  assert (C : f64_canonical (FFin neg (c * 2 ^ (52 - l)) (Z.of_N l - 52 + j)) = true).
  { cbn [f64_canonical]. apply orb_true_iff. right. rewrite !andb_true_iff. rewrite Z.ltb_lt, Z.leb_le, N.leb_le, N.ltb_lt. repeat split; auto; lia. }
  assert (V : mag (c * 2 ^ (52 - l)) (Z.of_N l - 52 + j) == nq c * two j).
  { unfold mag. rewrite nq_mul, <- two_nat. rewrite two_add. setoid_replace (nq c * two (Z.of_N (52 - l)) * (two (Z.of_N l - 52) * two j)) with (nq c * two j * (two (Z.of_N (52 - l)) * two (Z.of_N l - 52))) by ring.
    rewrite <- two_add. replace (Z.of_N (52 - l) + (Z.of_N l - 52))%Z with 0%Z by lia. change (two 0) with 1. ring. }
  assert (Mp : (0 < c * 2 ^ (52 - l))%N) by (change (2 ^ 52)%N with 4503599627370496%N in X1; lia).
  split; auto. split; auto. split; auto. intros num den D R. apply round_ratio_near; auto; rewrite R, V; pose proof (two_pos (Z.of_N l - 52 + j)); [destruct (_ =? _)%N|]; lra.
Qed.

(** * The decimal that is printed *)

Section Printed.
  Context (neg : bool) (m : N) (e : Z) (Hm : (0 < m)%N) (C : f64_canonical (FFin neg m e) = true).
  Let p := log10_floor m e.

  Lemma mag_top : mag m e + (1 # 2) * two e <= threshold.
  Proof.
    unfold mag, threshold. assert (M : (m + 1 <= 2 ^ 53)%N) by (destruct (canonical_cases _ _ _ C) as [[_ X]|[_ X]]; lia). apply nq_le in M. rewrite nq_add in M. change (nq 1) with 1 in M. change (nq (2 ^ 53)) with (two 53) in M.
    assert (E : two e <= two 971). { apply two_le. destruct (canonical_cases _ _ _ C) as [[-> _]|[X _]]; lia. } pose proof (two_pos e). pose proof (nq_nonneg m).
    setoid_replace (nq m * two e + (1 # 2) * two e) with ((nq m + (1 # 2)) * two e) by ring.
    apply Qle_trans with ((two 53 - (1 # 2)) * two e); [apply Qmult_le_compat_r; lra|]. rewrite !(Qmult_comm (two 53 - (1 # 2))). apply Qmult_le_compat_r; auto. change (two 53) with (9007199254740992 # 1). lra.
  Qed.
  Lemma printed_near : let '(d, k) := shortest (seq 1 17) neg m e p in mag m e - (1 # 2) * two e <= dval d k <= mag m e + (1 # 2) * two e.
  Proof.
    pose proof (shortest_reads_back (seq 1 17) neg m e p Hm C) as R. destruct (shortest (seq 1 17) neg m e p) as [d k]. cbv zeta in R. cbn [fst snd] in R.
    destruct (dec_ratio d k) as (num & den & D & V & Q). rewrite Q in R. pose proof (round_ratio_error neg num den m e D R). rewrite V in H. exact H.
  Qed.
  Lemma printed_exponent : let '(d, k) := shortest (seq 1 17) neg m e p in (-400 <= k <= 308)%Z.
  Proof.
    pose proof printed_near as N. pose proof (shortest_digits neg m e Hm C) as D. pose proof (shortest_exponent neg m e Hm C) as X. fold p in D, X.
    destruct (shortest (seq 1 17) neg m e p) as [d k]. split.
    - destruct X as [X _]. assert (-325 < p + 1)%Z; [|lia]. apply ten_lt_inv. destruct (log10_floor_spec neg m e Hm C) as [_ U]. fold p in U. eapply Qle_lt_trans; [|exact U].
      apply Qle_trans with (two (-1074)); [vm_compute; discriminate|]. apply Qle_trans with (two e); [apply two_le; destruct (canonical_cases _ _ _ C) as [[-> _]|[Y _]]; lia|]. apply mag_ge. lia.
    - assert (k < 309)%Z; [|lia]. apply ten_lt_inv. apply Qle_lt_trans with threshold; [|vm_compute; reflexivity]. apply Qle_trans with (dval d k); [|pose proof mag_top; lra].
      unfold dval. assert (G : 1 <= nq d). { change 1 with (nq 1). apply nq_le. lia. } pose proof (ten_pos k). nra.
  Qed.

  (** Numbers that are not among the three largest. *)
  Lemma below_top : (m + 3 < 2 ^ 53)%N \/ (e < 971)%Z -> mag m e + (1 # 2) * two e <= (two 53 - (7 # 2)) * two 971.
  Proof.
    intros [M|E].
    - assert (M' : (m + 4 <= 2 ^ 53)%N) by lia. apply nq_le in M'. rewrite nq_add in M'. change (nq 4) with (4 # 1) in M'. change (nq (2 ^ 53)) with (two 53) in M'.
      assert (E : two e <= two 971). { apply two_le. destruct (canonical_cases _ _ _ C) as [[-> _]|[X _]]; lia. } pose proof (two_pos e). pose proof (nq_nonneg m). unfold mag.
      setoid_replace (nq m * two e + (1 # 2) * two e) with ((nq m + (1 # 2)) * two e) by ring.
      apply Qle_trans with ((two 53 - (7 # 2)) * two e); [apply Qmult_le_compat_r; lra|]. rewrite !(Qmult_comm (two 53 - (7 # 2))). apply Qmult_le_compat_r; auto. change (two 53) with (9007199254740992 # 1). lra.
    - assert (M : (m <= 2 ^ 53)%N) by (destruct (canonical_cases _ _ _ C) as [[_ X]|[_ X]]; lia). apply nq_le in M. change (nq (2 ^ 53)) with (9007199254740992 # 1) in M. change (two 53) with (9007199254740992 # 1).
      assert (T : two 971 == 2 * two 970) by reflexivity. assert (L : two e <= two 970) by (apply two_le; lia). pose proof (two_pos e). pose proof (nq_nonneg m). unfold mag.
      apply Qle_trans with (((9007199254740992 # 1) + (1 # 2)) * two e); [|rewrite T; nra]. nra.
  Qed.

  Lemma printed_reads : let '(d, k) := shortest (seq 1 17) neg m e p in forall fuel,
    exists m' e', scale_f64 fuel (u64_to_f64 (fst (ryu_parts d k))) (snd (ryu_parts d k)) = Ok (FFin false m' e') /\ f64_canonical (FFin false m' e') = true.
  Proof.
    pose proof printed_near as PN. pose proof printed_exponent as PE. pose proof (shortest_digits neg m e Hm C) as SD. pose proof (shortest_exponent neg m e Hm C) as SX. fold p in SD, SX.
    destruct (shortest (seq 1 17) neg m e p) as [d k]. intro fuel. unfold ryu_parts. destruct SD as [SD _].
    destruct ((0 <=? k) && (Z.of_nat (length (N_text d)) + k <=? 16))%Z eqn:C1; cbn [fst snd].
    - apply andb_true_iff in C1. rewrite !Z.leb_le in C1. destruct C1 as [C1 C2]. pose proof (N_text_bound d) as B.
      assert (BD : (d * 10 ^ Z.to_N (k + 1) <= 10 ^ 17)%N).
      { apply N.le_trans with (10 ^ N.of_nat (length (N_text d)) * 10 ^ Z.to_N (k + 1))%N; [apply N.mul_le_mono_r; lia|]. rewrite <- N.pow_add_r. apply N.pow_le_mono_r; lia. }
      assert (P0 : (0 < d * 10 ^ Z.to_N (k + 1))%N) by (pose proof (N.pow_nonzero 10 (Z.to_N (k + 1))); nia).
      assert (P18 : (10 ^ 17 <= u64_limit)%N) by (vm_compute; discriminate).
      destruct (u64_float (d * 10 ^ Z.to_N (k + 1)) ltac:(split; [exact P0|lia])) as (mf & ef & -> & CF & _ & B64 & _). apply scale_down; auto. lia.
    - assert (P18 : (10 ^ 17 <= u64_limit)%N) by (vm_compute; discriminate).
      destruct (u64_float d ltac:(lia)) as (mf & ef & EF & CF & PF & B64 & BF). rewrite EF.
      destruct (Z_lt_le_dec k 0) as [K|K]; [apply scale_down; auto|].
      apply product_ok; [lia|]. destruct (pow10_finite k ltac:(lia)) as (mp & ep & EP & PP & [B1 B2] & _). exists mp, ep. split; auto. split; auto.
      assert (FN : 0 <= mag mf ef) by apply mag_nonneg. pose proof (nq_nonneg d) as DN. pose proof (ten_pos k) as TK. unfold dval in PN.
      destruct (N.lt_ge_cases (m + 3) (2 ^ 53)) as [M|M]; [|destruct (Z_lt_le_dec e 971) as [E|E]].
      1, 2: pose proof (below_top ltac:(auto)) as BT; change (two (-53)) with (1 # 9007199254740992) in *; unfold threshold; change (two 53) with (9007199254740992 # 1) in *;
        pose proof (two_pos 971) as T971; set (u := 1 + (1 # 9007199254740992)) in *;
        assert (U : mag mf ef * mag mp ep <= (nq d * u) * (ten k * u)) by (unfold u in *; apply Qle_trans with (mag mf ef * (ten k * (1 + (1 # 9007199254740992)))); [nra|apply Qmult_le_compat_r; [lra|nra]]);
        eapply Qle_lt_trans; [exact U|]; setoid_replace (nq d * u * (ten k * u)) with (nq d * ten k * (u * u)) by ring;
        apply Qle_lt_trans with (((9007199254740992 # 1) - (7 # 2)) * two 971 * (u * u)); [apply Qmult_le_compat_r; [lra|unfold u; lra]|];
        setoid_replace (((9007199254740992 # 1) - (7 # 2)) * two 971 * (u * u)) with (((9007199254740992 # 1) - (7 # 2)) * (u * u) * two 971) by ring;
        apply Qmult_lt_compat_r; [auto|reflexivity].
      assert (E971 : e = 971%Z) by (destruct (canonical_cases _ _ _ C) as [[X _]|[X _]]; lia). pose proof mag_top as MT. rewrite E971 in *.
      assert (M53 : (m < 2 ^ 53)%N) by (destruct (canonical_cases _ _ _ C) as [[X _]|[_ X]]; lia).
      assert (ML : ten 308 <= mag m 971). { apply Qle_trans with (mag (2 ^ 53 - 3) 971); [vm_compute; discriminate|]. unfold mag. apply Qmult_le_compat_r; [apply nq_le; lia|pose proof (two_pos 971); lra]. }
      assert (MU : mag m 971 < ten 309). { apply Qle_lt_trans with (mag (2 ^ 53) 971); [|vm_compute; reflexivity]. unfold mag. apply Qmult_le_compat_r; [apply nq_le; lia|pose proof (two_pos 971); lra]. }
      destruct (log10_floor_spec neg m 971 Hm C) as [PL PU].
      assert (P308 : p = 308%Z).
      { assert (p = log10_floor m 971) as -> by (unfold p; rewrite E971; reflexivity).
        assert (X1 : (log10_floor m 971 < 309)%Z) by (apply ten_lt_inv; eapply Qle_lt_trans; [exact PL|exact MU]). assert (X2 : (308 < log10_floor m 971 + 1)%Z) by (apply ten_lt_inv; eapply Qle_lt_trans; [exact ML|exact PU]). lia. }
      rewrite P308 in SX. destruct SX as [S1 S2]. change (308 - 16)%Z with 292%Z in *.
      destruct (Z.eq_dec k 292) as [K2|K2].
      + subst k. specialize (S2 eq_refl). unfold dval in S2.
        assert (D157 : (d <= 17976931348623157)%N).
        { assert (d < 17976931348623158)%N; [|lia]. apply nq_lt. change (nq 17976931348623158) with (17976931348623158 # 1).
          assert (X : mag (2 ^ 53 - 1) 971 + (1 # 2) * ten 292 < (17976931348623158 # 1) * ten 292) by (vm_compute; reflexivity).
          assert (Y : mag m 971 <= mag (2 ^ 53 - 1) 971). { unfold mag. apply Qmult_le_compat_r; [apply nq_le; lia|pose proof (two_pos 971); lra]. } nra. }
        assert (F156 : mag mf ef <= 17976931348623156 # 1).
        { destruct (N.eq_dec d 17976931348623157) as [->|D1]; [assert (V : u64_to_f64 17976931348623157 = FFin false 8988465674311578 1) by (vm_compute; reflexivity); rewrite V in EF; inversion EF; vm_compute; discriminate|].
          destruct (N.eq_dec d 17976931348623156) as [->|D2]; [assert (V : u64_to_f64 17976931348623156 = FFin false 8988465674311578 1) by (vm_compute; reflexivity); rewrite V in EF; inversion EF; vm_compute; discriminate|].
          assert (D3 : (d <= 17976931348623155)%N) by lia. apply nq_le in D3. change (nq 17976931348623155) with (17976931348623155 # 1) in D3. change (two (-53)) with (1 # 9007199254740992) in BF.
          unfold u64_to_f64 in EF. destruct (round_ratio_error false d 1 mf ef ltac:(lia) EF) as [A _]. rewrite ratio_1 in A.
          assert (EE : (ef <= 1)%Z).
          { destruct (canonical_cases _ _ _ CF) as [[-> _]|[_ Y]]; [lia|]. assert (ef < 2)%Z; [|lia]. apply two_lt_inv. change (two 2) with (4 # 1).
            assert (Y' : (2 ^ 52 <= mf)%N) by lia. apply nq_le in Y'. change (nq (2 ^ 52)) with (4503599627370496 # 1) in Y'. pose proof (two_pos ef). unfold mag in BF.
            assert ((4503599627370496 # 1) * two ef <= nq mf * two ef) by nra. lra. }
          apply two_le in EE. change (two 1) with (2 # 1) in EE. lra. }
        destruct pow10_292 as (m2 & e2 & E2 & P2 & L2). change (Z.to_N 292) with 292%N in EP. rewrite E2 in EP. inversion EP. subst m2 e2.
        eapply Qle_lt_trans; [|exact L2]. apply Qmult_le_compat_r; auto. apply mag_nonneg.
      + assert (KR : (293 <= k <= 308)%Z) by lia.
        pose proof tops as TT. rewrite forallb_forall in TT. specialize (TT (Z.to_N k)). assert (IN : In (Z.to_N k) (map N.of_nat (seq 293 16))).
        { apply in_map_iff. exists (Z.to_nat k). split; [lia|]. apply in_seq. lia. }
        specialize (TT IN). unfold top_ok in TT. rewrite EP in TT. rewrite !andb_true_iff in TT. destruct TT as [[_ TT] E0]. apply Z.leb_le in E0. apply N.ltb_lt in TT.
        set (T := ((2 ^ 54 - 1) * 2 ^ 970)%N) in *. assert (THR : threshold == nq T) by (vm_compute; reflexivity).
        assert (DT : (d <= T / 10 ^ Z.to_N k)%N).
        { apply N.div_le_lower_bound; [apply N.pow_nonzero; lia|]. apply nq_le. rewrite nq_mul, <- ten_nat, Z2N.id, <- THR by lia. lra. }
        assert (T53 : (T / 10 ^ Z.to_N k < 2 ^ 53)%N).
        { apply N.div_lt_upper_bound; [apply N.pow_nonzero; lia|]. eapply N.lt_le_trans; [|apply N.mul_le_mono_r, (N.pow_le_mono_r 10 293); lia]. vm_compute. reflexivity. }
        destruct (exact_float false d 0 ltac:(lia) ltac:(lia)) as (mx & ex & _ & _ & VX & RX). unfold u64_to_f64 in EF.
        rewrite (RX d 1%N) in EF; [|lia|rewrite ratio_1; change (two 0) with 1; ring]. inversion EF. subst mx ex.
        rewrite VX, THR. change (two 0) with 1. eapply Qle_lt_trans; [|apply nq_lt; exact TT]. unfold mag. rewrite !nq_mul. rewrite <- (two_nat (Z.to_N ep)), Z2N.id by auto.
        apply nq_le in DT. pose proof (nq_nonneg mp). pose proof (two_pos ep).
        setoid_replace (nq d * 1 * (nq mp * two ep)) with (nq d * (nq mp * two ep)) by ring. setoid_replace (nq (T / 10 ^ Z.to_N k) * nq mp * two ep) with (nq (T / 10 ^ Z.to_N k) * (nq mp * two ep)) by ring.
        apply Qmult_le_compat_r; auto. nra.
  Qed.
End Printed.
