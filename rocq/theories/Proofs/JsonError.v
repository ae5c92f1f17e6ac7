(** How far the float that serde_json reads is from the one it wrote. *)
From Coq Require Import QArith Qpower Lqa Lia.
From Verif.Model Require Import Json.
From Verif.Proofs Require Import BytesFacts IntFacts FloatFacts RoundFacts ShortestFacts JsonFloat JsonScale JsonExact.
Open Scope Q_scope.

(** Half a unit in the last place, relatively, and the smallest error. *)
Notation u := (1 # 9007199254740992).
Definition eta : Q := two (-1075).
Lemma eta_pos : 0 < eta.
Proof. apply two_pos. Qed.
Lemma eta_half : eta == (1 # 2) * two (-1074).
Proof. reflexivity. Qed.

Lemma half_unit : forall neg m e, f64_canonical (FFin neg m e) = true -> (1 # 2) * two e <= u * mag m e + eta.
Proof.
  intros neg m e C. pose proof (mag_nonneg m e). pose proof eta_pos. destruct (canonical_cases _ _ _ C) as [[-> _]|[_ [M _]]]; [rewrite eta_half in *; lra|].
  apply nq_le in M. change (nq (2 ^ 52)) with (4503599627370496 # 1) in M. pose proof (two_pos e). unfold mag in *.
  assert ((4503599627370496 # 1) * two e <= nq m * two e) by (apply Qmult_le_compat_r; lra). lra.
Qed.
Lemma round_close : forall num den m e, (0 < den)%N -> round_ratio false num den = FFin false m e ->
  mag m e * (1 - u) - eta <= ratio num den /\ ratio num den <= mag m e * (1 + u) + eta.
Proof.
  intros num den m e D H. assert (C : f64_canonical (FFin false m e) = true) by (rewrite <- H; now apply round_ratio_canonical).
  pose proof (half_unit _ _ _ C). destruct (round_ratio_error false num den m e D H). lra.
Qed.
Lemma round_close_1 : forall num den m e, (0 < den)%N -> round_ratio false num den = FFin false m e -> 1 <= mag m e ->
  mag m e * (1 - u) <= ratio num den /\ ratio num den <= mag m e * (1 + u).
Proof.
  intros num den m e D H G. assert (C : f64_canonical (FFin false m e) = true) by (rewrite <- H; now apply round_ratio_canonical).
  destruct (round_ratio_error false num den m e D H). destruct (canonical_cases _ _ _ C) as [[-> M]|[_ [M _]]].
  - exfalso. assert (M' : (m <= 2 ^ 53)%N) by lia. apply nq_le in M'. pose proof (two_pos (-1074)) as T. unfold mag in G. assert (X : nq m * two (-1074) <= nq (2 ^ 53) * two (-1074)) by (apply Qmult_le_compat_r; lra).
    assert (Y : nq (2 ^ 53) * two (-1074) < 1) by (vm_compute; reflexivity). lra.
  - apply nq_le in M. change (nq (2 ^ 52)) with (4503599627370496 # 1) in M. pose proof (two_pos e). unfold mag in *.
    assert ((4503599627370496 # 1) * two e <= nq m * two e) by (apply Qmult_le_compat_r; lra). lra.
Qed.

(** [v] is [A] up to a relative error and an absolute one. *)
Definition close (v A a b : Q) : Prop := A - A * a - b <= v /\ v <= A + A * a + b.

Lemma divided : forall v P T y A a b D, 0 <= v -> 0 < P -> (10 # 1) <= T -> 0 <= y -> 0 <= A -> 0 <= a -> a <= 4 * u -> 0 <= b ->
  P * (1 - u) <= T -> T <= P * (1 + u) -> y * (1 - u) - eta <= v / P -> v / P <= y * (1 + u) + eta -> close v A a b -> D * T == A ->
  close y D (a + (21 # 10) * u) (b * (1 # 2) + (11 # 10) * eta).
Proof.
  intros v P T y A a b D V PP TT Y AA A0 A4 B P1 P2 L U [C1 C2] E. pose proof eta_pos as H.
  assert (GP : v / P * P == v) by (field; lra). set (G := v / P) in *. clearbody G.
  assert (W : exists w, w * T == v) by (exists (v / T); field; lra). destruct W as [w W].
  assert (D0 : 0 <= D). { destruct (Qlt_le_dec D 0) as [X|X]; auto. exfalso. assert (D * T < 0) by nra. lra. }
  assert (DA : 0 <= D * a /\ D * a <= 4 * u * D) by (split; nra). set (Da := D * a) in *.
  assert (W1 : D - Da - b * (1 # 10) <= w).
  { apply Qmult_le_r with T; [lra|]. rewrite W. apply Qle_trans with (A - A * a - b); auto. rewrite <- E. unfold Da. assert (b * (1 # 10) * T >= b) by nra. nra. }
  assert (W2 : w <= D + Da + b * (1 # 10)).
  { apply Qmult_le_r with T; [lra|]. rewrite W. apply Qle_trans with (A + A * a + b); auto. rewrite <- E. unfold Da. assert (b * (1 # 10) * T >= b) by nra. nra. }
  assert (W0 : 0 <= w). { destruct (Qlt_le_dec w 0) as [X|X]; auto. exfalso. assert (w * T < 0) by nra. lra. }
  assert (G1 : G <= w * (1 + u)). { apply Qmult_le_r with P; [auto|]. rewrite GP, <- W. assert (w * T <= w * (P * (1 + u))) by nra. lra. }
  assert (G2 : w * (1 - u) <= G). { apply Qmult_le_r with P; [auto|]. rewrite GP, <- W. assert (w * (P * (1 - u)) <= w * T) by nra. lra. }
  unfold close. setoid_replace (D * (a + (21 # 10) * u)) with (Da + (21 # 10) * u * D) by (unfold Da; ring). split; lra.
Qed.

Lemma multiplied : forall F P S T y D, 0 <= F -> 0 <= P -> 0 <= S -> 0 <= T -> 0 <= y -> F * (1 - u) <= S -> S <= F * (1 + u) -> P * (1 - u) <= T -> T <= P * (1 + u) ->
  y * (1 - u) - eta <= F * P -> F * P <= y * (1 + u) + eta -> D == S * T -> close y D ((31 # 10) * u) ((11 # 10) * eta).
Proof.
  intros F P S T y D F0 P0 S0 T0 Y0 S1 S2 T1 T2 L U E. pose proof eta_pos as H.
  assert (A1 : F * P * ((1 - u) * (1 - u)) <= D). { rewrite E. setoid_replace (F * P * ((1 - u) * (1 - u))) with ((F * (1 - u)) * (P * (1 - u))) by ring. apply Qle_trans with (S * (P * (1 - u))); [apply Qmult_le_compat_r; lra|]. rewrite !(Qmult_comm S). apply Qmult_le_compat_r; auto. }
  assert (A2 : D <= F * P * ((1 + u) * (1 + u))). { rewrite E. setoid_replace (F * P * ((1 + u) * (1 + u))) with ((F * (1 + u)) * (P * (1 + u))) by ring. apply Qle_trans with (F * (1 + u) * T); [apply Qmult_le_compat_r; lra|]. rewrite !(Qmult_comm (F * (1 + u))). apply Qmult_le_compat_r; lra. }
  assert (D0 : 0 <= D) by (rewrite E; nra). set (G := F * P) in *. clearbody G. unfold close. split; lra.
Qed.

(** * Reading *)

Lemma pow10_close : forall k, (0 <= k <= 308)%Z -> exists m e, pow10_f64 (Z.to_N k) = FFin false m e /\ (0 < m)%N /\ 0 < mag m e /\ mag m e * (1 - u) <= ten k /\ ten k <= mag m e * (1 + u).
Proof.
  intros k K. destruct (pow10_finite k K) as (m & e & E & P & [G _] & C). exists m, e. split; auto. split; auto. split; [lra|].
  unfold pow10_f64 in E. pose proof (round_close_1 _ 1 m e ltac:(lia) E G) as [A B]. rewrite ratio_1, <- ten_nat, Z2N.id in A, B by lia. auto.
Qed.
Lemma divide_close : forall m e k A a b m' e', (1 <= k <= 308)%Z -> 0 <= A -> 0 <= a -> a <= 4 * u -> 0 <= b -> close (mag m e) A a b -> div_f64 (FFin false m e) (pow10_f64 (Z.to_N k)) = FFin false m' e' ->
  close (mag m' e') (A * ten (- k)) (a + (21 # 10) * u) (b * (1 # 2) + (11 # 10) * eta).
Proof.
  intros m e k A a b m' e' K A0 a0 a4 B0 Cl H. destruct (pow10_close k ltac:(lia)) as (mp & ep & E & P & PP & P1 & P2). rewrite E in H.
  destruct (div_value m e mp ep P) as (num & den & D & R & X). rewrite X in H. destruct (round_close _ _ _ _ D H) as [L U]. rewrite R in L, U.
  apply (divided (mag m e) (mag mp ep) (ten k) (mag m' e') A a b); auto using mag_nonneg.
  - change (10 # 1) with (ten 1). apply ten_le. lia.
  - rewrite <- Qmult_assoc, <- ten_add. replace (- k + k)%Z with 0%Z by lia. change (ten 0) with 1. ring.
Qed.

Lemma div_f64_finite : forall m e m' e', (0 < m')%N -> (exists x y, div_f64 (FFin false m e) (FFin false m' e') = FFin false x y) \/ div_f64 (FFin false m e) (FFin false m' e') = FInf false.
Proof.
  intros m e m' e' P. destruct (div_value m e m' e' P) as (num & den & D & _ & ->). unfold round_ratio. destruct (num =? 0)%N; [eauto|]. destruct (scaled num den _) as [a b].
  destruct (round_half_even a b =? 2 ^ 53)%N; destruct (971 <? _)%Z; eauto.
Qed.

(** Far below the smallest float: nothing is left after two divisions. *)
Lemma div_308 : forall m e, mag m e <= two 66 -> exists m' e', div_f64 (FFin false m e) (pow10_f64 308) = FFin false m' e' /\ f64_canonical (FFin false m' e') = true /\ mag m' e' <= two 66.
Proof.
  intros m e L. destruct pow10_308 as (mp & ep & E & P & B). rewrite E. destruct (div_value m e mp ep P) as (num & den & D & R & ->). pose proof (mag_nonneg m e) as MN. pose proof (two_pos 66) as T.
  assert (Q : ratio num den <= mag m e * (1 # 2)). { rewrite R. apply Qle_shift_div_r; [lra|]. nra. }
  destruct (small_finite num den D ltac:(lra)) as (m' & e' & -> & C' & U). exists m', e'. split; auto. split; auto. lra.
Qed.
Lemma div_zero : forall e m' e', (0 < m')%N -> div_f64 (FFin false 0 e) (FFin false m' e') = FFin false 0 (-1074).
Proof. intros e m' e' P. unfold div_f64. unfold as_ratio. destruct (e - e')%Z; reflexivity. Qed.
Lemma mul_zero : forall e m' e', mul_f64 (FFin false 0 e) (FFin false m' e') = FFin false 0 (-1074).
Proof. intros e m' e'. unfold mul_f64. rewrite N.mul_0_l. unfold as_ratio. destruct (e + e')%Z; reflexivity. Qed.
Lemma scale_zero : forall fuel j, scale_f64 fuel (FFin false 0 (-1074)) j = Ok (FFin false 0 (-1074)).
Proof.
  intros fuel j. assert (X : scale_f64 fuel (FFin false 0 (-1074)) j = if (Z.abs j <=? 308)%Z then if (0 <=? j)%Z then let y := mul_f64 (FFin false 0 (-1074)) (pow10_f64 (Z.to_N j)) in if f64_finite y then Ok y else json_fail
    else Ok (div_f64 (FFin false 0 (-1074)) (pow10_f64 (Z.to_N (- j)))) else Ok (FFin false 0 (-1074))). { destruct fuel; reflexivity. }
  rewrite X. destruct (Z.leb_spec (Z.abs j) 308) as [A|A]; auto. destruct (Z.leb_spec 0 j).
  - destruct (pow10_close j ltac:(lia)) as (mp & ep & E & PP & _). rewrite E, mul_zero. reflexivity.
  - destruct (pow10_close (- j) ltac:(lia)) as (mp & ep & E & PP & _). rewrite E, div_zero by auto. reflexivity.
Qed.
Lemma scale_step : forall fuel m e j, (0 < m)%N -> (j < -308)%Z -> scale_f64 (S fuel) (FFin false m e) j = scale_f64 fuel (div_f64 (FFin false m e) (pow10_f64 308)) (j + 308).
Proof.
  intros fuel m e j P J. cbn [scale_f64]. destruct (Z.leb_spec (Z.abs j) 308); [lia|]. assert (NZ : is_zero (FFin false m e) = false) by (cbn [is_zero]; apply N.eqb_neq; lia). rewrite NZ. destruct (Z.leb_spec 0 j); [lia|]. reflexivity.
Qed.
Lemma zero_form : forall e, f64_canonical (FFin false 0 e) = true -> e = (-1074)%Z.
Proof. intros e C. destruct (canonical_cases _ _ _ C) as [[-> _]|[_ [M _]]]; auto. exfalso. revert M. vm_compute. intro M. now apply M. Qed.
Lemma scale_far : forall m e A j fuel, (j < -616)%Z -> (0 < m)%N -> f64_canonical (FFin false m e) = true -> mag m e <= two 66 -> 0 <= A -> A <= two 64 -> close (mag m e) A ((101 # 100) * u) 0 ->
  scale_f64 (S (S fuel)) (FFin false m e) j = Ok (FFin false 0 (-1074)).
Proof.
  intros m e A j fuel J P C L A0 AL Cl. rewrite scale_step by lia. destruct (div_308 m e L) as (m1 & e1 & X1 & C1 & L1). rewrite X1. change 308%N with (Z.to_N 308) in X1.
  pose proof (divide_close m e 308 A ((101 # 100) * u) 0 m1 e1 ltac:(lia) A0 ltac:(lra) ltac:(lra) ltac:(lra) Cl X1) as Q1.
  destruct (N.eq_dec m1 0) as [->|N1]. { rewrite (zero_form e1 C1). apply scale_zero. }
  rewrite scale_step by lia. destruct (div_308 m1 e1 L1) as (m2 & e2 & X2 & C2 & L2). rewrite X2. change 308%N with (Z.to_N 308) in X2. pose proof (ten_pos (- (308))) as T308. pose proof eta_pos as EP.
  assert (A1 : 0 <= A * ten (- (308))) by nra.
  pose proof (divide_close m1 e1 308 (A * ten (- (308))) ((101 # 100) * u + (21 # 10) * u) (0 * (1 # 2) + (11 # 10) * eta) m2 e2 ltac:(lia) A1 ltac:(lra) ltac:(lra) ltac:(lra) Q1 X2) as [_ U].
  assert (S : A * ten (- (308)) * ten (- (308)) <= (1 # 100) * eta).
  { apply Qle_trans with (two 64 * (ten (- (308)) * ten (- (308)))).
    - rewrite <- Qmult_assoc. apply Qmult_le_compat_r; auto. nra.
    - vm_compute. discriminate. }
  destruct (N.eq_dec m2 0) as [->|N2]. { rewrite (zero_form e2 C2). apply scale_zero. }
  exfalso. pose proof (mag_ge m2 e2 ltac:(lia)) as G. assert (T : two (-1074) <= two e2) by (apply two_le; destruct (canonical_cases _ _ _ C2) as [[-> _]|[Y _]]; lia). rewrite eta_half in *. set (h := two (-1074)) in *.
  set (D := A * ten (- (308)) * ten (- (308))) in *. clearbody D. lra.
Qed.

Theorem scale_close : forall n j m' e', (0 < n <= u64_limit)%N -> (j <= 308)%Z -> scale_f64 10 (u64_to_f64 n) j = Ok (FFin false m' e') ->
  close (mag m' e') (dval n j) ((6 # 1) * u) ((17 # 10) * eta).
Proof.
  intros n j m' e' N J H. destruct (u64_float n N) as (m & e & F & C & P & B64 & BN). rewrite F in H. unfold u64_to_f64 in F. pose proof eta_pos as EP.
  assert (N1 : 1 <= nq n) by (change 1 with (nq 1); apply nq_le; lia).
  destruct (round_ratio_relative false n 1 m e ltac:(lia) ltac:(rewrite ratio_1; auto) F) as [_ G]. destruct (round_close_1 n 1 m e ltac:(lia) F G) as [F1 F2]. rewrite ratio_1 in F1, F2.
  pose proof (ten_pos j) as TJ. unfold dval. assert (D0 : 0 <= nq n * ten j) by (apply Qmult_le_0_compat; lra).
  assert (CF : close (mag m e) (nq n) ((101 # 100) * u) 0) by (unfold close; split; lra).
  assert (WEAK : forall a b, a <= (6 # 1) * u -> b <= (17 # 10) * eta -> close (mag m' e') (nq n * ten j) a b -> close (mag m' e') (nq n * ten j) ((6 # 1) * u) ((17 # 10) * eta)).
  { intros a b A B [X Y]. assert (nq n * ten j * a <= nq n * ten j * ((6 # 1) * u)) by (rewrite !(Qmult_comm (nq n * ten j)); apply Qmult_le_compat_r; auto). unfold close. set (w := nq n * ten j) in *. clearbody w. split; lra. }
  assert (NL : nq n <= two 64) by (destruct N as [_ N]; apply nq_le in N; assert (nq u64_limit <= two 64) by (vm_compute; discriminate); lra).
  destruct (Z_lt_le_dec j (-616)) as [FAR|NEAR].
  { rewrite (scale_far m e (nq n) j 8 FAR P C B64 ltac:(lra) NL CF) in H. assert (M0 : FFin false 0 (-1074) = FFin false m' e') by congruence. injection M0 as <- <-. unfold close. rewrite mag_0.
    assert (S : nq n * ten j <= (1 # 100) * eta).
    { apply Qle_trans with (two 64 * ten (-616)); [|vm_compute; discriminate]. pose proof (ten_le j (-616) ltac:(lia)) as TL. pose proof (two_pos 64). apply Qle_trans with (two 64 * ten j); [apply Qmult_le_compat_r; lra|]. rewrite !(Qmult_comm (two 64)). apply Qmult_le_compat_r; lra. }
    set (w := nq n * ten j) in *. clearbody w. split; lra. }
  cbn [scale_f64] in H. destruct (Z.leb_spec (Z.abs j) 308) as [A|A].
  - destruct (Z.leb_spec 0 j) as [J0|J0].
    + destruct (pow10_close j ltac:(lia)) as (mp & ep & E & PP & Pp & P1 & P2). rewrite E in H. destruct (mul_value m e mp ep) as (num & den & D & R & X). rewrite X in H. cbv zeta in H.
      destruct (f64_finite (round_ratio false num den)); [|discriminate H]. assert (H' : round_ratio false num den = FFin false m' e') by congruence.
      destruct (round_close _ _ _ _ D H') as [L U]. rewrite R in L, U. apply (WEAK ((31 # 10) * u) ((11 # 10) * eta)); [lra|lra|].
      apply (multiplied (mag m e) (mag mp ep) (nq n) (ten j)); auto using mag_nonneg; try lra; reflexivity.
    + assert (H' : div_f64 (FFin false m e) (pow10_f64 (Z.to_N (- j))) = FFin false m' e') by congruence.
      pose proof (divide_close m e (- j) (nq n) ((101 # 100) * u) 0 m' e' ltac:(lia) ltac:(lra) ltac:(lra) ltac:(lra) ltac:(lra) CF H') as Q. replace (- - j)%Z with j in Q by lia. revert Q. apply WEAK; lra.
  - assert (NZ : is_zero (FFin false m e) = false) by (cbn [is_zero]; apply N.eqb_neq; lia). rewrite NZ in H. destruct (Z.leb_spec 0 j); [lia|].
    destruct (Z.leb_spec (Z.abs (j + 308)) 308) as [A'|A']; [|lia]. destruct (Z.leb_spec 0 (j + 308)); [lia|].
    destruct (pow10_close 308 ltac:(lia)) as (mp & ep & E & PP & _). change (Z.to_N 308) with 308%N in E. destruct (div_f64_finite m e mp ep PP) as [(m1 & e1 & X)|X].
    + rewrite E, X in H. assert (H' : div_f64 (FFin false m1 e1) (pow10_f64 (Z.to_N (- (j + 308)))) = FFin false m' e') by congruence. rewrite <- E in X. change 308%N with (Z.to_N 308) in X.
      pose proof (divide_close m e 308 (nq n) ((101 # 100) * u) 0 m1 e1 ltac:(lia) ltac:(lra) ltac:(lra) ltac:(lra) ltac:(lra) CF X) as Q1. pose proof (ten_pos (- (308))).
      assert (A1 : 0 <= nq n * ten (- (308))) by (pose proof (nq_nonneg n); nra).
      pose proof (divide_close m1 e1 (- (j + 308)) (nq n * ten (- (308))) ((101 # 100) * u + (21 # 10) * u) (0 * (1 # 2) + (11 # 10) * eta) m' e' ltac:(lia) A1 ltac:(lra) ltac:(lra) ltac:(lra) Q1 H') as Q2.
      assert (EE : nq n * ten (- (308)) * ten (- - (j + 308)) == nq n * ten j) by (rewrite <- Qmult_assoc, <- ten_add; replace (- (308) + - - (j + 308))%Z with j by lia; reflexivity).
      unfold close in Q2. rewrite EE in Q2. revert Q2. apply WEAK; lra.
    + rewrite E, X in H. exfalso. assert (Y : div_f64 (FInf false) (pow10_f64 (Z.to_N (- (j + 308)))) = FFin false m' e') by congruence. destruct (pow10_close (- (j + 308)) ltac:(lia)) as (m2 & e2 & E2 & _). rewrite E2 in Y. discriminate Y.
Qed.

(** What is read is at most eight units in the last place away. *)
Theorem read_close : forall neg m e, f64_canonical (FFin neg m e) = true -> exists m' e', f64_canonical (FFin neg m' e') = true /\ reads_as (ryu_text neg m e) (NFlt (FFin neg m' e'))
  /\ mag m e - (8 # 1) * two e <= mag m' e' /\ mag m' e' <= mag m e + (8 # 1) * two e.
Proof.
  intros neg m e C. destruct (N.eq_dec m 0) as [->|Nz].
  - exists 0%N, (-1074)%Z. split; [reflexivity|]. split; [apply read_zero|]. rewrite !mag_0. pose proof (two_pos e). lra.
  - assert (Hm : (0 < m)%N) by lia. pose proof (printed_reads neg m e Hm C) as PR. pose proof (read_printed neg m e Hm C) as RP. pose proof (printed_near neg m e Hm C) as PN.
    pose proof (printed_exponent neg m e Hm C) as PE. pose proof (shortest_digits neg m e Hm C) as SD.
    destruct (shortest (seq 1 17) neg m e (log10_floor m e)) as [d k]. destruct SD as [SD _]. destruct (PR 10%nat) as (m' & e' & S & C'). exists m', e'. split; auto. split; auto.
    assert (X : (0 < fst (ryu_parts d k) <= u64_limit)%N /\ (-400 <= snd (ryu_parts d k) <= 308)%Z /\ dval (fst (ryu_parts d k)) (snd (ryu_parts d k)) == dval d k).
    { assert (P18 : (10 ^ 17 <= u64_limit)%N) by (vm_compute; discriminate). unfold ryu_parts. destruct ((0 <=? k) && (Z.of_nat (length (N_text d)) + k <=? 16))%Z eqn:C1; cbn [fst snd].
      - apply andb_true_iff in C1. rewrite !Z.leb_le in C1. destruct C1 as [C1 C2]. pose proof (N_text_bound d) as B.
        assert (BD : (d * 10 ^ Z.to_N (k + 1) <= 10 ^ 17)%N).
        { apply N.le_trans with (10 ^ N.of_nat (length (N_text d)) * 10 ^ Z.to_N (k + 1))%N; [apply N.mul_le_mono_r; lia|]. rewrite <- N.pow_add_r. apply N.pow_le_mono_r; lia. }
        assert (P0 : (0 < d * 10 ^ Z.to_N (k + 1))%N) by (pose proof (N.pow_nonzero 10 (Z.to_N (k + 1))); nia). split; [lia|]. split; [lia|].
        unfold dval. rewrite nq_mul, <- ten_nat, Z2N.id by lia. rewrite <- Qmult_assoc, <- ten_add. replace (k + 1 + -1)%Z with k by lia. reflexivity.
      - split; [lia|]. split; [lia|reflexivity]. }
    destruct X as (X1 & X2 & X3). destruct (scale_close _ _ _ _ X1 (proj2 X2) S) as [L U]. rewrite X3 in L, U. pose proof (two_pos e) as T.
    assert (M : (m + 1 <= 2 ^ 53)%N) by (destruct (canonical_cases _ _ _ C) as [[_ X]|[_ X]]; lia). apply nq_le in M. rewrite nq_add in M. change (nq 1) with 1 in M. change (nq (2 ^ 53)) with (9007199254740992 # 1) in M.
    assert (DB : dval d k <= (9007199254740992 # 1) * two e). { destruct PN as [_ PN]. eapply Qle_trans; [exact PN|]. unfold mag. assert ((nq m + 1) * two e <= (9007199254740992 # 1) * two e) by (apply Qmult_le_compat_r; lra). lra. }
    assert (ET : eta <= (1 # 2) * two e). { rewrite eta_half. assert (two (-1074) <= two e) by (apply two_le; destruct (canonical_cases _ _ _ C) as [[-> _]|[Y _]]; lia). lra. }
    set (D := dval d k) in *. clearbody D. split; lra.
Qed.
