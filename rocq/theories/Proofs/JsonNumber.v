(** Every number text, and what serde_json reads from it (C77). *)
From Coq Require Import QArith Qpower Lqa Lia.
From Verif.Model Require Import Json.
From Verif.Spec Require Import SpecJsonText.
From Verif.Proofs Require Import BytesFacts ValueFacts IntFacts FloatFacts RoundFacts ShortestFacts JsonFloat JsonScale JsonExact JsonError.
Open Scope Q_scope.

(** * Scaling *)

Lemma zero_float : u64_to_f64 0 = FFin false 0 (-1074).
Proof. reflexivity. Qed.
Lemma scale_top : forall n j fuel, (0 < n <= u64_limit)%N -> (308 < j)%Z -> scale_f64 fuel (u64_to_f64 n) j = json_fail.
Proof.
  intros n j fuel N J. destruct (u64_float n N) as (m & e & F & C & P & _). rewrite F.
  assert (X : scale_f64 fuel (FFin false m e) j = if (Z.abs j <=? 308)%Z then if (0 <=? j)%Z then let y := mul_f64 (FFin false m e) (pow10_f64 (Z.to_N j)) in if f64_finite y then Ok y else json_fail
    else Ok (div_f64 (FFin false m e) (pow10_f64 (Z.to_N (- j)))) else if is_zero (FFin false m e) then Ok (FFin false m e) else if (0 <=? j)%Z then json_fail else match fuel with O => Ok (FFin false m e) | S fuel' => scale_f64 fuel' (div_f64 (FFin false m e) (pow10_f64 308)) (j + 308) end)
    by (destruct fuel; reflexivity).
  rewrite X. destruct (Z.leb_spec (Z.abs j) 308); [lia|]. assert (NZ : is_zero (FFin false m e) = false) by (cbn [is_zero]; apply N.eqb_neq; lia). rewrite NZ. destruct (Z.leb_spec 0 j); [reflexivity|lia].
Qed.
Lemma u64_close : forall n m e, (0 < n <= u64_limit)%N -> u64_to_f64 n = FFin false m e -> close (mag m e) (nq n) ((101 # 100) * u) 0.
Proof.
  intros n m e N F. unfold u64_to_f64 in F. assert (N1 : 1 <= nq n) by (change 1 with (nq 1); apply nq_le; lia).
  destruct (round_ratio_relative false n 1 m e ltac:(lia) ltac:(rewrite ratio_1; auto) F) as [_ G]. destruct (round_close_1 n 1 m e ltac:(lia) F G) as [F1 F2]. rewrite ratio_1 in F1, F2. unfold close; split; lra.
Qed.
Lemma limit_nq : forall n, (n <= u64_limit)%N -> nq n <= two 64.
Proof. intros n N. apply nq_le in N. assert (nq u64_limit <= two 64) by (vm_compute; discriminate). lra. Qed.
Lemma scale_tiny : forall n j, (n <= u64_limit)%N -> (j < -616)%Z -> scale_f64 10 (u64_to_f64 n) j = Ok (FFin false 0 (-1074)).
Proof.
  intros n j N J. destruct (N.eq_dec n 0) as [->|N0]; [rewrite zero_float; apply scale_zero|]. assert (N1 : (0 < n <= u64_limit)%N) by lia. destruct (u64_float n N1) as (m & e & F & C & P & B & _).
  pose proof (u64_close n m e N1 F) as CF. rewrite F. apply (scale_far m e (nq n) j 8); auto using nq_nonneg, limit_nq.
Qed.
Lemma scale_clamp : forall n j, (n <= u64_limit)%N -> scale_f64 10 (u64_to_f64 n) (clamp_i32 j) = scale_f64 10 (u64_to_f64 n) j.
Proof.
  intros n j N. unfold clamp_i32. destruct (Z_lt_le_dec j (-2147483648)) as [L|L].
  - rewrite (scale_tiny n j) by (auto; lia). apply scale_tiny; auto. lia.
  - destruct (Z_lt_le_dec 2147483647 j) as [U|U]; [|f_equal; lia]. destruct (N.eq_dec n 0) as [->|N0]; [rewrite zero_float, !scale_zero; reflexivity|]. rewrite !scale_top by lia. reflexivity.
Qed.
Lemma round_ratio_shape : forall a b, f64_finite (round_ratio false a b) = true -> exists m e, round_ratio false a b = FFin false m e.
Proof. intros a b H. unfold round_ratio in *. destruct (a =? 0)%N; [eauto|]. destruct (scaled a b _) as [x y]. destruct (round_half_even x y =? 2 ^ 53)%N; destruct (971 <? _)%Z; eauto; discriminate H. Qed.
(** What is read is a float near the number. *)
Lemma scale_read : forall n j y, (n <= u64_limit)%N -> scale_f64 10 (u64_to_f64 n) j = Ok y ->
  exists m e, y = FFin false m e /\ f64_canonical y = true /\ close (mag m e) (dval n j) ((6 # 1) * u) ((17 # 10) * eta).
Proof.
  intros n j y N H. destruct (N.eq_dec n 0) as [->|N0].
  { rewrite zero_float, scale_zero in H. assert (y = FFin false 0 (-1074)) as -> by congruence. exists 0%N, (-1074)%Z. split; auto. split; [reflexivity|]. unfold close, dval. rewrite mag_0. change (nq 0) with 0. pose proof eta_pos. lra. }
  assert (N1 : (0 < n <= u64_limit)%N) by lia. destruct (Z_lt_le_dec 308 j) as [T|T]; [rewrite scale_top in H by auto; discriminate H|]. destruct (u64_float n N1) as (m & e & F & C & P & B & _).
  assert (S : exists m' e', y = FFin false m' e' /\ f64_canonical (FFin false m' e') = true).
  { destruct (Z_lt_le_dec j 0) as [Z|Z].
    - rewrite F in H. destruct (scale_down 10 m e j Z C B) as (m' & e' & X & Y). exists m', e'. split; auto. congruence.
    - rewrite F in H. cbn [scale_f64] in H. destruct (Z.leb_spec (Z.abs j) 308); [|lia]. destruct (Z.leb_spec 0 j); [|lia]. cbv zeta in H. destruct (pow10_close j ltac:(lia)) as (mp & ep & E & _). rewrite E in H.
      destruct (mul_value m e mp ep) as (num & den & D & R & X). rewrite X in H. destruct (f64_finite (round_ratio false num den)) eqn:FI; [|discriminate H]. destruct (round_ratio_shape _ _ FI) as (m' & e' & Y). exists m', e'.
      split; [congruence|]. rewrite <- Y. now apply round_ratio_canonical. }
  destruct S as (m' & e' & -> & C'). exists m', e'. split; auto. split; auto. apply scale_close; auto.
Qed.
(** What is not too large is read. *)
Lemma scale_reads : forall n j, (n <= u64_limit)%N -> dval n j * (1 - (1 # 1000000)) <= (1797 # 1) * ten 305 -> exists y, scale_f64 10 (u64_to_f64 n) j = Ok y.
Proof.
  intros n j N L. destruct (N.eq_dec n 0) as [->|N0]; [rewrite zero_float, scale_zero; eauto|]. assert (N1 : (0 < n <= u64_limit)%N) by lia. destruct (u64_float n N1) as (m & e & F & C & P & B & BN).
  destruct (Z_lt_le_dec j 0) as [Z|Z]; [rewrite F; destruct (scale_down 10 m e j Z C B) as (m' & e' & X & Y); eauto|].
  assert (nq n >= 1) by (change 1 with (nq 1); apply nq_le; lia). unfold dval in L.
  assert (J : (j <= 308)%Z). { destruct (Z_lt_le_dec 308 j) as [T|T]; auto. exfalso. pose proof (ten_le 309 j ltac:(lia)) as X. assert (Y : (1797 # 1) * ten 305 < ten 309 * (1 - (1 # 1000000))) by (vm_compute; reflexivity). set (c := (1797 # 1) * ten 305) in *. clearbody c. set (T9 := ten 309) in *. assert (0 < T9) by apply ten_pos. clearbody T9. set (tj := ten j) in *. clearbody tj. nra. }
  rewrite F. destruct (pow10_finite j ltac:(lia)) as (mp & ep & E & PP & [G1 G2] & _).
  destruct (product_ok m e j ltac:(lia)) with (fuel := 10%nat) as (m' & e' & X & _); [|eauto]. exists mp, ep. split; auto. split; auto.
  assert (TH : (1797 # 1) * ten 305 * (1 + (1 # 100000)) < threshold) by (vm_compute; reflexivity). change (two (-53)) with (1 # 9007199254740992) in *. pose proof (mag_nonneg m e). pose proof (ten_pos j).
  set (c := (1797 # 1) * ten 305) in *. clearbody c. set (th := threshold) in *. clearbody th. set (tj := ten j) in *. clearbody tj. set (a := mag m e) in *. clearbody a. set (b := mag mp ep) in *. clearbody b. set (q := nq n) in *. clearbody q.
  assert (a * b <= (q * (1 + (1 # 9007199254740992))) * (tj * (1 + (1 # 9007199254740992)))). { apply Qle_trans with (q * (1 + (1 # 9007199254740992)) * b); [apply Qmult_le_compat_r; lra|]. rewrite !(Qmult_comm (q * _)). apply Qmult_le_compat_r; lra. }
  set (w := q * tj) in *. assert (W : q * (1 + (1 # 9007199254740992)) * (tj * (1 + (1 # 9007199254740992))) == w * ((1 + (1 # 9007199254740992)) * (1 + (1 # 9007199254740992)))) by (unfold w; ring). rewrite W in *. assert (0 <= w) by (unfold w; nra). clearbody w. lra.
Qed.

(** * Digits *)

Definition K : N := 1844674407370955161.
Notation kappa := (1 # 1000000000000000000).
Lemma push_full : forall n b, is_digit b = true -> push_digit n b = None -> (K <= n)%N /\ (u64_limit < push n b)%N.
Proof.
  intros n b D H. unfold push_digit in H. fold (push n b) in H. destruct (N.leb_spec (push n b) u64_limit) as [X|X]; [discriminate H|]. split; [|exact X]. unfold push in X. pose proof (digit_below b D). unfold u64_limit, K in *. lia.
Qed.
Lemma push_some : forall n b m, push_digit n b = Some m -> m = push n b /\ (m <= u64_limit)%N.
Proof. intros n b m H. unfold push_digit in H. fold (push n b) in H. destruct (N.leb_spec (push n b) u64_limit) as [X|X]; [|discriminate H]. injection H as <-. auto. Qed.
Lemma take_integer_is : forall ds n n' more, (n <= u64_limit)%N -> all_digits ds -> take_integer n ds = (n', more) ->
  (n' <= u64_limit)%N /\ exists tk, ds = tk ++ more /\ n' = fold_left push tk n /\ (more = [] \/ ((K <= n')%N /\ (u64_limit < fold_left push ds n)%N)).
Proof.
  induction ds as [|b ds IH]; intros n n' more L A H; cbn [take_integer] in H.
  - injection H as <- <-. split; auto. exists []. auto.
  - apply all_digits_cons in A. destruct A as [D A]. destruct (push_digit n b) as [m|] eqn:P.
    + apply push_some in P. destruct P as [-> P]. destruct (IH _ _ _ P A H) as (X & tk & -> & -> & Y). split; auto. exists (b :: tk). auto.
    + injection H as <- <-. split; auto. exists []. split; auto. split; auto. right. destruct (push_full n b D P) as [X Y]. split; auto. cbn [fold_left]. pose proof (fold_push_ge ds (push n b)). lia.
Qed.
Lemma take_decimals_is : forall ds n e n' e', (n <= u64_limit)%N -> all_digits ds -> take_decimals n e ds = (n', e') ->
  (n' <= u64_limit)%N /\ exists tk more, ds = tk ++ more /\ n' = fold_left push tk n /\ e' = (e - Z.of_nat (length tk))%Z /\ (more = [] \/ (K <= n')%N).
Proof.
  induction ds as [|b ds IH]; intros n e n' e' L A H; cbn [take_decimals] in H.
  - injection H as <- <-. split; auto. exists [], []. cbn [length]. repeat split; auto. lia.
  - apply all_digits_cons in A. destruct A as [D A]. destruct (push_digit n b) as [m|] eqn:P.
    + apply push_some in P. destruct P as [-> P]. destruct (IH _ _ _ _ P A H) as (X & tk & more & -> & -> & -> & Y). split; auto. exists (b :: tk), more. cbn [length]. repeat split; auto. lia.
    + injection H as <- <-. split; auto. exists [], (b :: ds). cbn [length]. repeat split; auto. { lia. } right. apply (push_full n b D P).
Qed.
Lemma all_digits_split : forall a b, all_digits (a ++ b) -> all_digits a /\ all_digits b.
Proof. intros a b H. split; intros c I; apply H; apply in_or_app; auto. Qed.
Lemma ten_of_nat : forall n, nq (10 ^ N.of_nat n) == ten (Z.of_nat n).
Proof. intro n. rewrite <- ten_nat, nat_N_Z. reflexivity. Qed.
(** Digits that are dropped change the number by a tiny part. *)
Lemma dropped : forall n r a, all_digits r -> (K <= n)%N \/ r = [] -> dval n a * (1 - kappa) <= dval (fold_left push r n) (a - Z.of_nat (length r)) /\ dval (fold_left push r n) (a - Z.of_nat (length r)) <= dval n a * (1 + kappa).
Proof.
  intros n r a A [L| ->].
  - unfold dval. rewrite fold_push_shift, nq_add, nq_mul, ten_of_nat. pose proof (fold_push_bound r A) as B. assert (B' : nq (fold_left push r 0%N) <= ten (Z.of_nat (length r))) by (rewrite <- ten_of_nat; apply nq_le; lia).
    assert (E : ten a == ten (Z.of_nat (length r)) * ten (a - Z.of_nat (length r))) by (rewrite <- ten_add; replace (Z.of_nat (length r) + (a - Z.of_nat (length r)))%Z with a by lia; reflexivity). rewrite E.
    pose proof (nq_nonneg (fold_left push r 0%N)). pose proof (ten_pos (Z.of_nat (length r))). pose proof (ten_pos (a - Z.of_nat (length r))).
    apply nq_le in L. assert (LK : (1000000000000000000 # 1) <= nq n) by (eapply Qle_trans; [|exact L]; vm_compute; discriminate).
    set (t := ten (Z.of_nat (length r))) in *. set (s := ten (a - Z.of_nat (length r))) in *. set (q := nq n) in *. set (p := nq (fold_left push r 0%N)) in *. clearbody t s q p.
    assert (Q0 : 0 <= p * s) by nra. assert (Q1 : p * s <= t * s) by nra. assert (Q2 : t * s <= kappa * (q * (t * s))). { setoid_replace (kappa * (q * (t * s))) with ((kappa * q) * (t * s)) by ring. assert (1 <= kappa * q) by lra. assert (0 < t * s) by nra. set (w := t * s) in *. clearbody w. nra. }
    setoid_replace ((q * t + p) * s) with (q * (t * s) + p * s) by ring. set (w := q * (t * s)) in *. set (v := t * s) in *. set (x := p * s) in *. clearbody w x. assert (0 < v) by (unfold v; nra). clearbody v. split; lra.
  - cbn [fold_left length]. replace (a - Z.of_nat 0)%Z with a by lia. assert (0 <= dval n a) by (unfold dval; pose proof (nq_nonneg n); pose proof (ten_pos a); nra). lra.
Qed.
(** Digits that are counted in the wrong place, too. *)
Lemma misplaced : forall n tk r a, all_digits tk -> all_digits r -> (K <= n)%N ->
  dval (fold_left push tk n) (a - Z.of_nat (length tk)) * (1 - (2 # 1) * kappa) <= dval (fold_left push r n) (a - Z.of_nat (length r))
  /\ dval (fold_left push r n) (a - Z.of_nat (length r)) <= dval (fold_left push tk n) (a - Z.of_nat (length tk)) * (1 + (2 # 1) * kappa).
Proof.
  intros n tk r a A B L. destruct (dropped n tk a A (or_introl L)) as [P Q]. destruct (dropped n r a B (or_introl L)) as [R S].
  assert (W : 0 <= dval n a) by (unfold dval; pose proof (nq_nonneg n); pose proof (ten_pos a); nra). assert (U : dval n a <= dval (fold_left push tk n) (a - Z.of_nat (length tk))).
  { unfold dval. rewrite fold_push_shift, nq_add, nq_mul, ten_of_nat. assert (E : ten a == ten (Z.of_nat (length tk)) * ten (a - Z.of_nat (length tk))) by (rewrite <- ten_add; replace (Z.of_nat (length tk) + (a - Z.of_nat (length tk)))%Z with a by lia; reflexivity). rewrite E.
    pose proof (nq_nonneg (fold_left push tk 0%N)). pose proof (ten_pos (a - Z.of_nat (length tk))). set (t := ten (Z.of_nat (length tk))). set (s := ten (a - Z.of_nat (length tk))) in *. set (q := nq n). set (p := nq (fold_left push tk 0%N)) in *. clearbody t s q p. nra. }
  set (x := dval n a) in *. set (y := dval (fold_left push tk n) (a - Z.of_nat (length tk))) in *. set (z := dval (fold_left push r n) (a - Z.of_nat (length r))) in *. clearbody x y z. split; lra.
Qed.
(** The number that is kept of the digits. *)
Lemma taken : forall ip fp n more n' e', all_digits ip -> all_digits fp -> take_integer 0 ip = (n, more) -> take_decimals n (Z.of_nat (length more)) fp = (n', e') ->
  (n' <= u64_limit)%N /\ forall x, dval n' (e' + x) * (1 - (2 # 1) * kappa) <= dval (digits_value (ip ++ fp)) (x - Z.of_nat (length fp))
    /\ dval (digits_value (ip ++ fp)) (x - Z.of_nat (length fp)) <= dval n' (e' + x) * (1 + (2 # 1) * kappa).
Proof.
  intros ip fp n more n' e' A B TI TD. destruct (take_integer_is ip 0 n more ltac:(vm_compute; discriminate) A TI) as (NL & tk & -> & NE & C). destruct (take_decimals_is _ _ _ _ _ NL B TD) as (NL' & td & md & -> & NE' & -> & C'). split; auto. intro x.
  change (digits_value ((tk ++ more) ++ td ++ md)) with (fold_left push ((tk ++ more) ++ td ++ md) 0%N). rewrite !fold_left_app, <- NE. apply all_digits_split in A. destruct A as [_ A]. pose proof (all_digits_split _ _ B) as [B1 B2]. destruct C as [-> |[C _]].
  - cbn [fold_left length app] in *. rewrite <- NE'. replace (Z.of_nat 0 - Z.of_nat (length td) + x)%Z with (x - Z.of_nat (length td))%Z by lia. replace (x - Z.of_nat (length (td ++ md)))%Z with (x - Z.of_nat (length td) - Z.of_nat (length md))%Z by (rewrite app_length; lia).
    destruct (dropped n' md (x - Z.of_nat (length td)) B2 ltac:(tauto)) as [P Q]. assert (0 <= dval n' (x - Z.of_nat (length td))) by (unfold dval; pose proof (nq_nonneg n'); pose proof (ten_pos (x - Z.of_nat (length td))); nra).
    set (y := dval n' (x - Z.of_nat (length td))) in *. clearbody y. split; lra.
  - destruct (misplaced n td (more ++ td ++ md) (Z.of_nat (length more) + x) B1) as [P Q]; auto. { apply all_digits_app; auto. }
    rewrite <- !fold_left_app. rewrite NE'. replace (x - Z.of_nat (length (td ++ md)))%Z with (Z.of_nat (length more) + x - Z.of_nat (length (more ++ td ++ md)))%Z by (rewrite !app_length; lia).
    replace (Z.of_nat (length more) - Z.of_nat (length td) + x)%Z with (Z.of_nat (length more) + x - Z.of_nat (length td))%Z by lia. auto.
Qed.

(** * Floats *)

Lemma eight : forall m e w v, f64_canonical (FFin false m e) = true -> 0 <= w -> close (mag m e) w ((6 # 1) * u) ((17 # 10) * eta) -> w * (1 - (2 # 1) * kappa) <= v -> v <= w * (1 + (2 # 1) * kappa) ->
  mag m e - (8 # 1) * two e <= v /\ v <= mag m e + (8 # 1) * two e.
Proof.
  intros m e w v C W [L U] V1 V2. pose proof (two_pos e) as T.
  assert (M : (m <= 2 ^ 53)%N) by (destruct (canonical_cases _ _ _ C) as [[_ X]|[_ X]]; lia). apply nq_le in M. change (nq (2 ^ 53)) with (9007199254740992 # 1) in M.
  assert (MB : mag m e <= (9007199254740992 # 1) * two e) by (unfold mag; apply Qmult_le_compat_r; lra).
  assert (ET : eta <= (1 # 2) * two e). { rewrite eta_half. assert (two (-1074) <= two e) by (apply two_le; destruct (canonical_cases _ _ _ C) as [[-> _]|[Y _]]; lia). lra. }
  set (M' := mag m e) in *. set (t := two e) in *. set (h := eta) in *. clearbody M' t h. split; lra.
Qed.
Definition signed (pos : bool) (y : f64) : f64 := if pos then y else neg_f64 y.
Lemma scale_small : forall n j m e, (n < 2 ^ 53)%N -> (-22 <= j <= 22)%Z -> scale_f64 10 (u64_to_f64 n) j = Ok (FFin false m e) ->
  mag m e - (1 # 2) * two e <= dval n j /\ dval n j <= mag m e + (1 # 2) * two e.
Proof.
  intros n j m e N J H. destruct (N.eq_dec n 0) as [->|N0].
  - rewrite zero_float, scale_zero in H. injection H as <- <-. unfold dval. change (nq 0) with 0. rewrite mag_0. pose proof (two_pos (-1074)). lra.
  - destruct (exact_float false n 0 ltac:(lia) ltac:(lia)) as (mf & ef & CF & PF & VF & RF). change (two 0) with 1 in *. unfold u64_to_f64 in H. rewrite (RF n 1%N) in H by (lia || (rewrite ratio_1; ring)).
    unfold scale_f64 in H. replace (Z.abs j <=? 308)%Z with true in H by (symmetry; apply Z.leb_le; lia). destruct (0 <=? j)%Z eqn:S.
    + apply Z.leb_le in S. destruct (pow10_exact j ltac:(lia)) as (mp & ep & EP & PP & VP). rewrite EP in H. destruct (mul_value mf ef mp ep) as (a & b & B & AB & X). rewrite X in H. destruct (f64_finite (round_ratio false a b)); [|discriminate H]. assert (Y : round_ratio false a b = FFin false m e) by congruence. pose proof (round_ratio_error false a b m e B Y) as Z.
      assert (W : ratio a b == dval n j) by (rewrite AB, VF, VP; unfold dval; ring). rewrite W in Z. exact Z.
    + apply Z.leb_gt in S. destruct (pow10_exact (- j) ltac:(lia)) as (mp & ep & EP & PP & VP). rewrite EP in H. destruct (div_value mf ef mp ep PP) as (a & b & B & AB & X). rewrite X in H. assert (Y : round_ratio false a b = FFin false m e) by congruence. pose proof (round_ratio_error false a b m e B Y) as Z.
      assert (W : ratio a b == dval n j) by (rewrite AB, VF, VP; unfold dval; rewrite ten_opp; pose proof (ten_pos j); field; lra). rewrite W in Z. exact Z.
Qed.
Lemma few_digits : forall ip fp n more n' e', all_digits ip -> all_digits fp -> take_integer 0 ip = (n, more) -> take_decimals n (Z.of_nat (length more)) fp = (n', e') ->
  (digits_value (ip ++ fp) < 2 ^ 53)%N -> n' = digits_value (ip ++ fp) /\ e' = (- Z.of_nat (length fp))%Z.
Proof.
  intros ip fp n more n' e' A B TI TD S. destruct (take_integer_is ip 0 n more ltac:(vm_compute; discriminate) A TI) as (NL & tk & -> & NE & C). destruct (take_decimals_is _ _ _ _ _ NL B TD) as (NL' & td & md & -> & NE' & -> & C').
  change (digits_value ((tk ++ more) ++ td ++ md)) with (fold_left push ((tk ++ more) ++ td ++ md) 0%N) in *. change (2 ^ 53)%N with 9007199254740992%N in S. destruct C as [-> |[_ C]].
  2:{ rewrite fold_left_app in S. pose proof (fold_push_ge (td ++ md) (fold_left push (tk ++ more) 0%N)). unfold u64_limit in C. lia. }
  rewrite app_nil_r, !fold_left_app in *. rewrite <- NE, <- NE' in *. destruct C' as [-> |C'].
  - cbn [fold_left length]. rewrite app_nil_r. split; auto; cbn; lia.
  - pose proof (fold_push_ge md n'). unfold K in C'. lia.
Qed.
Lemma float_near : forall pos ip fp n more n' e' x y, all_digits ip -> all_digits fp -> take_integer 0 ip = (n, more) -> take_decimals n (Z.of_nat (length more)) fp = (n', e') ->
  float_from_parts pos n' (e' + x) = Ok y -> approximates (negb pos) (digits_value (ip ++ fp)) (x - Z.of_nat (length fp)) y.
Proof.
  intros pos ip fp n more n' e' x y A B TI TD H. destruct (taken _ _ _ _ _ _ A B TI TD) as [NL V]. destruct (V x) as [V1 V2]. unfold float_from_parts in H. apply bind_ok in H. destruct H as (z & S & H). assert (y = signed pos z) as -> by (unfold signed; congruence).
  destruct (scale_read _ _ _ NL S) as (m & e & -> & C & CL). assert (W : 0 <= dval n' (e' + x)) by (unfold dval; pose proof (nq_nonneg n'); pose proof (ten_pos (e' + x)); nra).
  destruct (eight m e _ _ C W CL V1 V2) as [E1 E2]. exists m, e. split; [destruct pos; reflexivity|]. split; [destruct pos; auto; exact C|]. split; [split; [exact E1|exact E2]|].
  intros D J. destruct (few_digits _ _ _ _ _ _ A B TI TD D) as [-> ->]. replace (- Z.of_nat (length fp) + x)%Z with (x - Z.of_nat (length fp))%Z in S by lia. exact (scale_small _ _ _ _ D J S).
Qed.
Lemma float_some : forall pos ip fp n more n' e' x, all_digits ip -> all_digits fp -> take_integer 0 ip = (n, more) -> take_decimals n (Z.of_nat (length more)) fp = (n', e') ->
  decimal (digits_value (ip ++ fp)) (x - Z.of_nat (length fp)) <= (1797 # 1) * ten 305 -> exists y, float_from_parts pos n' (e' + x) = Ok y.
Proof.
  intros pos ip fp n more n' e' x A B TI TD L. destruct (taken _ _ _ _ _ _ A B TI TD) as [NL V]. destruct (V x) as [V1 V2]. assert (W : 0 <= dval n' (e' + x)) by (unfold dval; pose proof (nq_nonneg n'); pose proof (ten_pos (e' + x)); nra).
  destruct (scale_reads n' (e' + x) NL) as (z & S).
  - change (decimal (digits_value (ip ++ fp)) (x - Z.of_nat (length fp))) with (dval (digits_value (ip ++ fp)) (x - Z.of_nat (length fp))) in L. set (c := (1797 # 1) * ten 305) in *. clearbody c. set (w := dval n' (e' + x)) in *. clearbody w. lra.
  - unfold float_from_parts. rewrite S. cbn [bind]. eauto.
Qed.
Close Scope Q_scope.

(** * Text *)
Open Scope byte_scope.

Lemma digit_in : forall b, In b (lit "0123456789") <-> is_digit b = true.
Proof. intro b. split; [intro H; cbn in H; repeat (destruct H as [<-|H]; [reflexivity|]); destruct H|]. destruct b; intro H; try discriminate H; cbn; tauto. Qed.
Lemma digits_all : forall t, digits t <-> all_digits t.
Proof. intro t. unfold digits, all_digits. rewrite Forall_forall. split; intros H b I; apply digit_in; auto. Qed.
Lemma digits_value_N : forall t, all_digits t -> digits_N t = digits_value t.
Proof. intros t A. rewrite digits_N_fold by auto. reflexivity. Qed.
Definition no_digit (r : bytes) : Prop := match r with [] => True | c :: _ => is_digit c = false end.
Lemma span_is : forall s ds r, span_digits s = (ds, r) -> s = ds ++ r /\ all_digits ds /\ no_digit r.
Proof.
  induction s as [|c s IH]; intros ds r H; cbn [span_digits] in H.
  - injection H as <- <-. split; auto. split; [intros x []|exact I].
  - destruct (is_digit c) eqn:D; [|injection H as <- <-; split; auto; split; [intros x []|exact D]]. destruct (span_digits s) as [d0 r0]. injection H as <- <-. destruct (IH _ _ eq_refl) as (-> & A & N). split; auto. split; auto. intros x [<-|X]; auto.
Qed.

Definition scaled_by (neg : bool) (x : N) : Z := if neg then (- Z.of_N x)%Z else Z.of_N x.
Definition signs : list (bytes * bool) := [([], false); (["+"], false); (["-"], true)].
Lemma parts_zero : forall pos j, float_from_parts pos 0 j = Ok (FFin (negb pos) 0 (-1074)).
Proof. intros pos j. unfold float_from_parts. rewrite zero_float, scale_zero. destruct pos; reflexivity. Qed.
Lemma parts_clamp : forall pos n j, (n <= u64_limit)%N -> float_from_parts pos n (clamp_i32 j) = float_from_parts pos n j.
Proof. intros pos n j N. unfold float_from_parts. now rewrite scale_clamp. Qed.
Lemma parts_top : forall pos n j, (0 < n <= u64_limit)%N -> (308 < j)%Z -> float_from_parts pos n j = json_fail.
Proof. intros pos n j N J. unfold float_from_parts. now rewrite scale_top. Qed.
Lemma parts_tiny : forall pos n j, (n <= u64_limit)%N -> (j < -616)%Z -> float_from_parts pos n j = Ok (FFin (negb pos) 0 (-1074)).
Proof. intros pos n j N J. unfold float_from_parts. rewrite scale_tiny by auto. destruct pos; reflexivity. Qed.
Definition after_sign (s : bytes) : bool * bytes :=
  match s with b :: s' => if beqb b "+" then (true, s') else if beqb b "-" then (false, s') else (true, s) | [] => (true, []) end.
Definition exponent_digits (positive : bool) (significand : N) (start : Z) (p : bool * bytes) : outcome (f64 * bytes) :=
  let '(plus, s1) := p in
  let '(ds, rest) := span_digits s1 in
  match ds with
  | [] => json_fail
  | _ =>
      let x := digits_N ds in
      if (i32_max <? x)%N then
        if negb (significand =? 0)%N && plus then json_fail else Ok (FFin (negb positive) 0 (-1074), rest)
      else
        let e := clamp_i32 (if plus then start + Z.of_N x else start - Z.of_N x) in
        let* y := float_from_parts positive significand e in Ok (y, rest)
  end.
Lemma exponent_after_sign : forall pos n start s, read_exponent pos n start s = exponent_digits pos n start (after_sign s).
Proof. reflexivity. Qed.
Lemma exponent_is : forall pos n start sg neg xs rest, (n <= u64_limit)%N -> (Z.abs start < 2 ^ 30)%Z -> In (sg, neg) signs -> all_digits xs -> xs <> [] -> no_digit rest ->
  read_exponent pos n start (sg ++ xs ++ rest) = let* y := float_from_parts pos n (start + scaled_by neg (digits_value xs)) in Ok (y, rest).
Proof.
  intros pos n start sg neg xs rest N ST I A NE R.
  assert (SP : span_digits (xs ++ rest) = (xs, rest)) by (apply span_digits_all; auto).
  assert (S : after_sign (sg ++ xs ++ rest) = (negb neg, xs ++ rest)).
  { destruct I as [I|[I|[I|[]]]]; injection I as <- <-; try reflexivity. cbn [app]. destruct xs as [|c xs]; [congruence|]. cbn [app after_sign]. assert (D : is_digit c = true) by (apply A; now left). destruct (beqb c "+") eqn:X; [apply beqb_eq in X; subst c; discriminate D|]. destruct (beqb c "-") eqn:Y; [apply beqb_eq in Y; subst c; discriminate D|]. reflexivity. }
  rewrite exponent_after_sign, S. unfold exponent_digits. rewrite SP. destruct xs as [|c xs']; [congruence|]. set (xs := c :: xs') in *. cbv zeta. rewrite (digits_value_N xs A). set (x := digits_value xs). destruct (N.ltb_spec i32_max x) as [B|B].
  - unfold i32_max in B. destruct (N.eqb_spec n 0) as [->|N0].
    + rewrite parts_zero. cbn [bind negb andb]. destruct neg; reflexivity.
    + destruct neg; cbn [negb andb scaled_by].
      * rewrite parts_tiny by (auto; lia). reflexivity.
      * rewrite parts_top by lia. reflexivity.
  - replace (if negb neg then start + Z.of_N x else start - Z.of_N x)%Z with (start + scaled_by neg x)%Z by (destruct neg; cbn [negb scaled_by]; lia). rewrite parts_clamp by auto. reflexivity.
Qed.
Lemma exponent_meant : forall pos n start s y rest, (n <= u64_limit)%N -> (Z.abs start < 2 ^ 30)%Z -> read_exponent pos n start s = Ok (y, rest) ->
  exists sg neg xs, s = sg ++ xs ++ rest /\ In (sg, neg) signs /\ all_digits xs /\ xs <> [] /\ float_from_parts pos n (start + scaled_by neg (digits_value xs)) = Ok y.
Proof.
  intros pos n start s y rest N ST H.
  assert (S : exists sg neg s1, s = sg ++ s1 /\ In (sg, neg) signs /\ after_sign s = (negb neg, s1)).
  { destruct s as [|b s']; [exists [], false, []; cbn; auto 9|]. unfold after_sign. destruct (beqb b "+") eqn:X; [apply beqb_eq in X; subst b; exists ["+"], false, s'; cbn; auto 9|]. destruct (beqb b "-") eqn:Y; [apply beqb_eq in Y; subst b; exists ["-"], true, s'; cbn; auto 9|]. exists [], false, (b :: s'). cbn; auto 9. }
  destruct S as (sg & neg & s1 & E & I & M). destruct (span_digits s1) as [xs r] eqn:SP. destruct (span_is _ _ _ SP) as (E1 & A & R).
  assert (NE : xs <> []). { intros ->. rewrite exponent_after_sign, M in H. unfold exponent_digits in H. rewrite SP in H. discriminate H. }
  rewrite E, E1 in H. rewrite (exponent_is pos n start sg neg xs r N ST I A NE R) in H. apply bind_ok in H. destruct H as (z & Z & H). assert (z = y /\ r = rest) as [-> ->] by (split; congruence). exists sg, neg, xs. rewrite E, E1. auto.
Qed.

Lemma start_bound : forall ip fp n more n' e', all_digits ip -> all_digits fp -> take_integer 0 ip = (n, more) -> take_decimals n (Z.of_nat (length more)) fp = (n', e') ->
  (Z.abs e' <= Z.of_nat (length ip + length fp))%Z /\ (n' <= u64_limit)%N.
Proof.
  intros ip fp n more n' e' A B TI TD. destruct (take_integer_is ip 0 n more ltac:(vm_compute; discriminate) A TI) as (NL & tk & -> & NE & C). destruct (take_decimals_is _ _ _ _ _ NL B TD) as (NL' & td & md & -> & NE' & -> & C'). split; auto. rewrite !app_length. lia.
Qed.
Lemma exact_limit : forall ip n more, all_digits ip -> take_integer 0 ip = (n, more) -> (more = [] /\ n = digits_value ip /\ (n <= u64_limit)%N) \/ (more <> [] /\ (u64_limit < digits_value ip)%N).
Proof.
  intros ip n more A TI. destruct (take_integer_is ip 0 n more ltac:(vm_compute; discriminate) A TI) as (NL & tk & E & NE & C). destruct more as [|c more].
  - left. rewrite app_nil_r in E. subst tk. auto.
  - right. split; [discriminate|]. destruct C as [C|[_ C]]; [discriminate C|exact C].
Qed.
Lemma integer_none : forall neg d, (forall z, ~ is_integer neg d z) <-> (if neg then (d = 0 \/ 2 ^ 63 < d)%N else (u64_limit < d)%N).
Proof.
  intros neg d. unfold is_integer, u64_limit. destruct neg; split; intro H.
  - destruct (N.eq_dec d 0); auto. right. destruct (N.lt_ge_cases (2 ^ 63) d) as [|L]; auto. exfalso. apply (H (- Z.of_N d)%Z). split; auto. lia.
  - intros z [L _]. lia.
  - destruct (N.lt_ge_cases d (2 ^ 64)) as [L|L]; [exfalso; now apply (H (Z.of_N d))|]. change (2 ^ 64)%N with 18446744073709551616%N in L. lia.
  - intros z [L _]. change (2 ^ 64)%N with 18446744073709551616%N in L. lia.
Qed.
Lemma integer_near : forall neg n, (n <= u64_limit)%N -> (n = 0 \/ 2 ^ 53 <= n)%N -> approximates neg n 0 (signed (negb neg) (u64_to_f64 n)).
Proof.
  intros neg n N BIG. destruct (N.eq_dec n 0) as [->|N0].
  - rewrite zero_float. exists 0%N, (-1074)%Z. split; [destruct neg; reflexivity|]. split; [destruct neg; reflexivity|]. change (magnitude 0 (-1074)) with (mag 0 (-1074)). change (decimal 0 0) with (dval 0 0). change (Qpower (2 # 1) (-1074)) with (two (-1074)).
    rewrite mag_0. pose proof (two_pos (-1074)). unfold dval. change (nq 0) with 0%Q. split; [|intros _ _]; lra.
  - assert (N1 : (0 < n <= u64_limit)%N) by lia. destruct (u64_float n N1) as (m & e & F & C & P & _). rewrite F. pose proof (u64_close n m e N1 F) as [L U]. pose proof eta_pos. pose proof (nq_nonneg n).
    assert (D : (dval n 0 == nq n)%Q) by (unfold dval; change (ten 0) with 1%Q; ring).
    destruct (eight m e (nq n) (dval n 0) C) as [E1 E2]; auto; [unfold close; split; lra|rewrite D; lra|rewrite D; lra|].
    exists m, e. split; [destruct neg; reflexivity|]. split; [destruct neg; auto; exact C|]. split; [split; [exact E1|exact E2]|]. intros D0 _; lia.
Qed.

(** What is read is a number text, and the number is what it says. *)
Lemma whole_digits : forall b ds, all_digits (b :: ds) -> beqb b "0" && negb (bytes_eqb ds []) = false -> whole_part (b :: ds).
Proof.
  intros b ds A H. split; [now apply digits_all|]. split; [discriminate|]. intros t' E. injection E as -> ->. rewrite beqb_refl in H. cbn [andb] in H. apply negb_false_iff, bytes_eqb_eq in H. exact H.
Qed.
Lemma at_exponent_is : forall s s', at_exponent s = Some s' -> exists c, s = c :: s' /\ In c ["e"; "E"].
Proof.
  intros [|b s] s' H; [discriminate H|]. cbn [at_exponent] in H. destruct (beqb b "e" || beqb b "E") eqn:C; [|discriminate H]. assert (s = s') as -> by congruence. exists b. split; auto. apply orb_true_iff in C. rewrite !beqb_eq in C. cbn. intuition.
Qed.
Lemma no_digit_point : forall s, no_digit ("." :: s).
Proof. reflexivity. Qed.
Definition plus_sign (pos : bool) (t : bytes) : bytes := (if negb pos then ["-"] else []) ++ t.
Lemma number_meant : forall pos s n rest, (Z.of_nat (length s) < 2 ^ 30)%Z -> read_number pos s = Ok (n, rest) -> exists t, s = t ++ rest /\ number_says (plus_sign pos t) n /\ t <> [].
Proof.
  intros pos s n rest LEN H. unfold read_number in H. destruct (span_digits s) as [ip r0] eqn:SP. destruct (span_is _ _ _ SP) as (E & A & R0). destruct ip as [|b ds]; [discriminate H|]. destruct (beqb b "0" && negb (bytes_eqb ds [])) eqn:Z0; [discriminate H|].
  pose proof (whole_digits _ _ A Z0) as WP. set (ip := b :: ds) in *. assert (NEip : ip <> []) by discriminate. clearbody ip. destruct (take_integer 0 ip) as [n0 more] eqn:TI.
  assert (LIP : (Z.of_nat (length ip) + Z.of_nat (length r0) < 2 ^ 30)%Z) by (rewrite E, app_length in LEN; lia).
  assert (FLT : forall ft fp r1 n1 e1, fraction ft fp -> all_digits fp -> r0 = ft ++ r1 -> take_decimals n0 (Z.of_nat (length more)) fp = (n1, e1) ->
     (forall c s' y, r1 = c :: s' -> In c ["e"; "E"] -> read_exponent pos n1 e1 s' = Ok (y, rest) -> exists t, s = t ++ rest /\ number_says (plus_sign pos t) (NFlt y) /\ t <> [])
     /\ (forall y, r1 = rest -> float_from_parts pos n1 e1 = Ok y -> ft <> [] -> exists t, s = t ++ rest /\ number_says (plus_sign pos t) (NFlt y) /\ t <> [])).
  { intros ft fp r1 n1 e1 FR AF ER TD. assert (LF : length fp <= length ft) by (destruct FR; cbn [length]; lia). rewrite ER, app_length in LIP. destruct (start_bound _ _ _ _ _ _ A AF TI TD) as [SB NL]. split.
    - intros c s' y ER1 IC H1. apply exponent_meant in H1; auto; [|lia]. destruct H1 as (sg & neg & xs & ES & I & AX & NX & FP). exists (ip ++ ft ++ c :: sg ++ xs). split; [rewrite E, ER, ER1, ES, <- !app_assoc; cbn [app]; now rewrite <- app_assoc|]. split; [|destruct ip; [congruence|discriminate]].
      assert (NT : number_text (plus_sign pos (ip ++ ft ++ c :: sg ++ xs)) (negb pos) (digits_value (ip ++ fp)) (scaled_by neg (digits_value xs) - Z.of_nat (length fp)) (match ft, (c :: sg ++ xs) with [], [] => true | _, _ => false end)).
      { unfold plus_sign. apply number_text_is; auto. unfold scaled_by. apply ex_some; auto. now apply digits_all. }
      apply (ns_float _ _ _ _ _ _ NT); [destruct ft; discriminate|]. apply (float_near pos ip fp n0 more n1 e1 (scaled_by neg (digits_value xs)) y A AF TI TD FP).
    - intros y -> FP NF. exists (ip ++ ft). split; [rewrite E, ER, <- app_assoc; reflexivity|]. split; [|destruct ip; [congruence|discriminate]].
      assert (NT : number_text (plus_sign pos (ip ++ ft)) (negb pos) (digits_value (ip ++ fp)) (0 - Z.of_nat (length fp)) (match ft, ([] : bytes) with [], [] => true | _, _ => false end)).
      { unfold plus_sign. rewrite <- (app_nil_r ft) at 1. apply number_text_is; auto. apply ex_none. }
      apply (ns_float _ _ _ _ _ _ NT); [destruct ft; [congruence|discriminate]|]. replace e1 with (e1 + 0)%Z in FP by lia. apply (float_near pos ip fp n0 more n1 e1 0 y A AF TI TD FP). }
  assert (PLAIN : (if bytes_eqb more [] then (if pos then Ok (NInt (Z.of_N n0), r0) else if (1 <=? n0)%N && (n0 <=? 9223372036854775808)%N then Ok (NInt (- Z.of_N n0), r0) else Ok (NFlt (neg_f64 (u64_to_f64 n0)), r0))
      else let* y := float_from_parts pos n0 (Z.of_nat (length more)) in Ok (NFlt y, r0)) = Ok (n, rest) -> exists t, s = t ++ rest /\ number_says (plus_sign pos t) n /\ t <> []).
  { intro P. assert (ER : r0 = rest). { destruct (bytes_eqb more []); [destruct pos; [congruence|]; destruct ((1 <=? n0)%N && (n0 <=? 9223372036854775808)%N); congruence|]. apply bind_ok in P. destruct P as (y & _ & P). congruence. }
    subst r0. exists ip. split; auto. split; auto.
    assert (NT : number_text (plus_sign pos ip) (negb pos) (digits_value (ip ++ [])) (0 - Z.of_nat (length (@nil byte))) (match ([] : bytes), ([] : bytes) with [], [] => true | _, _ => false end)).
    { unfold plus_sign. rewrite <- (app_nil_r ip) at 1. change (@nil byte) with ([] ++ [] : bytes) at 3. apply number_text_is; auto; [apply fr_none|apply ex_none]. }
    rewrite app_nil_r in NT. cbn [length] in NT. change (0 - Z.of_nat 0)%Z with 0%Z in NT. destruct (exact_limit ip n0 more A TI) as [(-> & N0 & NL)|(NM & NL)].
    - change (bytes_eqb [] []) with true in P. cbv iota in P. rewrite <- N0 in NT. destruct pos; cbn [negb] in NT.
      + assert (n = NInt (Z.of_N n0)) as -> by congruence. apply (ns_integer _ _ _ _ _ NT). split; auto. change (2 ^ 64)%N with 18446744073709551616%N. unfold u64_limit in NL. lia.
      + destruct ((1 <=? n0)%N && (n0 <=? 9223372036854775808)%N) eqn:RG.
        * assert (n = NInt (- Z.of_N n0)) as -> by congruence. apply andb_true_iff in RG. rewrite !N.leb_le in RG. apply (ns_integer _ _ _ _ _ NT). split; auto.
        * assert (n = NFlt (neg_f64 (u64_to_f64 n0))) as -> by congruence. apply andb_false_iff in RG. rewrite !N.leb_gt in RG. apply (ns_float _ _ _ _ _ _ NT); [|refine (integer_near true n0 NL _); change (2 ^ 53)%N with 9007199254740992%N; lia]. intros _. apply integer_none. change (2 ^ 63)%N with 9223372036854775808%N. lia.
    - assert (bytes_eqb more [] = false) as BM by (apply bytes_eqb_neq; auto). rewrite BM in P. apply bind_ok in P. destruct P as (y & FP & P). assert (n = NFlt y) as -> by congruence.
      apply (ns_float _ _ _ _ _ _ NT).
      + intros _. apply integer_none. destruct pos; cbn [negb]; [auto|]. right. change (2 ^ 63)%N with 9223372036854775808%N. unfold u64_limit in NL. lia.
      + replace (Z.of_nat (length more)) with (Z.of_nat (length more) + 0)%Z in FP by lia. pose proof (float_near pos ip [] n0 more n0 (Z.of_nat (length more)) 0 y A ltac:(intros x []) TI eq_refl FP) as X. rewrite app_nil_r in X. exact X. }
  unfold finish_number in H. destruct r0 as [|c r1]; [now apply PLAIN|]. destruct (beqb c ".") eqn:CP.
  - apply beqb_eq in CP. subst c. apply bind_ok in H. destruct H as ([y r] & H & H'). assert (n = NFlt y /\ r = rest) as [-> ->] by (cbn [fst snd] in H'; split; congruence). clear H'. unfold read_decimals in H. destruct (span_digits r1) as [fp r2] eqn:SP1. destruct (span_is _ _ _ SP1) as (E1 & A1 & R1).
    destruct fp as [|f0 fp0]; [discriminate H|]. set (fp := f0 :: fp0) in *. assert (NF : fp <> []) by discriminate. clearbody fp. destruct (take_decimals n0 (Z.of_nat (length more)) fp) as [n1 e1] eqn:TD.
    destruct (FLT ("." :: fp) fp r2 n1 e1) as [F1 F2]; auto. { apply fr_some; auto. now apply digits_all. } { rewrite E1. reflexivity. }
    unfold finish_float in H. destruct (at_exponent r2) as [s'|] eqn:AE.
    + apply at_exponent_is in AE. destruct AE as (c & -> & IC). apply (F1 c s' y eq_refl IC H).
    + apply bind_ok in H. destruct H as (y' & FP & H). assert (y' = y /\ r2 = rest) as [-> ->] by (split; congruence). apply (F2 y eq_refl FP). discriminate.
  - destruct (beqb c "e" || beqb c "E") eqn:CE; [|now apply PLAIN]. apply bind_ok in H. destruct H as ([y r] & H & H'). assert (n = NFlt y /\ r = rest) as [-> ->] by (cbn [fst snd] in H'; split; congruence). clear H'.
    destruct (FLT [] [] (c :: r1) n0 (Z.of_nat (length more))) as [F1 _]; auto; [apply fr_none|intros x []|]. apply (F1 c r1 y eq_refl); auto. apply orb_true_iff in CE. rewrite !beqb_eq in CE. cbn. intuition.
Qed.

(** And texts of numbers in the range of floats are read. *)
Lemma number_reads : forall t neg d k plain rest, number_text t neg d k plain -> (decimal d k <= (1797 # 1) * ten 305)%Q -> (Z.of_nat (length t) < 2 ^ 30)%Z -> number_ends rest ->
  exists t' c t'' n, t = plus_sign (negb neg) t' /\ t' = c :: t'' /\ is_digit c = true /\ read_number (negb neg) (t' ++ rest) = Ok (n, rest)
    /\ match n with NInt z => plain = true /\ is_integer neg d z | NFlt y => (plain = true -> forall z, ~ is_integer neg d z) /\ approximates neg d k y end.
Proof.
  intros t neg d k plain rest NT L LEN R. destruct NT as [neg ip ft fp et x (DI & NEI & Z0) FR EX]. apply digits_all in DI.
  destruct ip as [|c ds]; [congruence|]. exists ((c :: ds) ++ ft ++ et), c, (ds ++ ft ++ et).
  assert (DC : is_digit c = true) by (apply DI; now left).
  assert (LZ : beqb c "0" && negb (bytes_eqb ds []) = false). { destruct (beqb c "0") eqn:C; [|reflexivity]. apply beqb_eq in C. subst c. rewrite (Z0 ds eq_refl). reflexivity. }
  set (ip := c :: ds) in *. destruct (take_integer 0 ip) as [n0 more] eqn:TI.
  assert (DF : all_digits fp) by (destruct FR; [intros b []|now apply digits_all]).
  assert (ND : no_digit (ft ++ et ++ rest)).
  { destruct FR; [|reflexivity]. destruct EX as [|e sg xs ng IE]; [now apply ends_no_digit|]. cbn [app no_digit]. destruct IE as [<-|[<-|[]]]; reflexivity. }
  assert (RN : read_number (negb neg) ((ip ++ ft ++ et) ++ rest) = finish_number (negb neg) n0 (Z.of_nat (length more)) (bytes_eqb more []) (ft ++ et ++ rest)).
  { unfold read_number. rewrite <- !app_assoc, span_digits_all by auto. unfold ip at 1. rewrite LZ, TI. reflexivity. }
  rewrite RN. clear RN.
  assert (LI : (Z.of_nat (length ip) + Z.of_nat (length ft) + Z.of_nat (length et) < 2 ^ 30)%Z) by (rewrite !app_length in LEN; lia).
  assert (LF : length fp <= length ft) by (destruct FR; cbn [length]; lia).
  cut (exists n, finish_number (negb neg) n0 (Z.of_nat (length more)) (bytes_eqb more []) (ft ++ et ++ rest) = Ok (n, rest)
    /\ match n with NInt z => match ft, et with [], [] => true | _, _ => false end = true /\ is_integer neg (digits_value (ip ++ fp)) z
       | NFlt y => (match ft, et with [], [] => true | _, _ => false end = true -> forall z, ~ is_integer neg (digits_value (ip ++ fp)) z) /\ approximates neg (digits_value (ip ++ fp)) (x - Z.of_nat (length fp)) y end).
  { intros (n & F & S). exists n. repeat split; auto. unfold plus_sign. rewrite negb_involutive. reflexivity. }
  destruct (take_decimals n0 (Z.of_nat (length more)) fp) as [n1 e1] eqn:TD. destruct (start_bound _ _ _ _ _ _ DI DF TI TD) as [SB NL].
  assert (FS : exists y, float_from_parts (negb neg) n1 (e1 + x) = Ok y /\ approximates neg (digits_value (ip ++ fp)) (x - Z.of_nat (length fp)) y).
  { destruct (float_some (negb neg) _ _ _ _ _ _ _ DI DF TI TD L) as (y & Y). exists y. split; auto. rewrite <- (negb_involutive neg). apply (float_near _ _ _ _ _ _ _ _ _ DI DF TI TD Y). }
  destruct FS as (y & FP & AP).
  assert (EXR : et <> [] -> exists e et', et = e :: et' /\ In e ["e"; "E"] /\ read_exponent (negb neg) n1 e1 (et' ++ rest) = Ok (y, rest)).
  { intro NEE. destruct EX as [|e sg xs ng IE IS DX NX]; [congruence|]. exists e, (sg ++ xs). split; auto. split; auto. rewrite <- app_assoc. rewrite exponent_is with (neg := ng); auto; [|lia|now apply digits_all|now apply ends_no_digit]. unfold scaled_by. rewrite FP. reflexivity. }
  destruct FR as [|fp DFP NFP].
  - cbn [app take_decimals] in *. assert (n1 = n0 /\ e1 = Z.of_nat (length more)) as [-> ->] by (split; congruence). rewrite app_nil_r in *. destruct et as [|e et'].
    + assert (x = 0%Z) as -> by (now inversion EX). rewrite Z.add_0_r in FP. change (0 - Z.of_nat 0)%Z with 0%Z in *. cbn [app length] in *. change (0 - Z.of_nat 0)%Z with 0%Z in *.
      assert (FN : finish_number (negb neg) n0 (Z.of_nat (length more)) (bytes_eqb more []) rest =
         (if bytes_eqb more [] then (if negb neg then Ok (NInt (Z.of_N n0), rest) else if (1 <=? n0)%N && (n0 <=? 9223372036854775808)%N then Ok (NInt (- Z.of_N n0), rest) else Ok (NFlt (neg_f64 (u64_to_f64 n0)), rest))
          else let* y := float_from_parts (negb neg) n0 (Z.of_nat (length more)) in Ok (NFlt y, rest))).
      { destruct rest as [|b rest]; [reflexivity|]. destruct R as (_ & R1 & R2 & R3). unfold finish_number. rewrite R1, R2, R3. reflexivity. }
      rewrite FN. destruct (exact_limit ip n0 more DI TI) as [(-> & N0 & NL')|(NM & NL')].
      * change (bytes_eqb [] []) with true. cbv iota. rewrite <- N0 in *. destruct neg; cbn [negb].
        -- destruct ((1 <=? n0)%N && (n0 <=? 9223372036854775808)%N) eqn:RG.
           ++ apply andb_true_iff in RG. rewrite !N.leb_le in RG. eexists. split; [reflexivity|]. split; auto. split; auto.
           ++ apply andb_false_iff in RG. rewrite !N.leb_gt in RG. eexists. split; [reflexivity|]. split; [|refine (integer_near true n0 NL' _); change (2 ^ 53)%N with 9007199254740992%N; lia]. intros _. apply integer_none. change (2 ^ 63)%N with 9223372036854775808%N. lia.
        -- eexists. split; [reflexivity|]. split; auto. split; auto. change (2 ^ 64)%N with 18446744073709551616%N. unfold u64_limit in NL'. lia.
      * assert (bytes_eqb more [] = false) as BM by (apply bytes_eqb_neq; auto). rewrite BM, FP. cbn [bind]. eexists. split; [reflexivity|]. split; auto.
        intros _. apply integer_none. destruct neg; [|auto]. right. change (2 ^ 63)%N with 9223372036854775808%N. unfold u64_limit in NL'. lia.
    + destruct (EXR ltac:(discriminate)) as (e' & et'' & EE & IE & RE). assert (e' = e /\ et'' = et') as [-> ->] by (split; congruence). exists (NFlt y). split; [|split; auto; discriminate].
      unfold finish_number. cbn [app]. assert (beqb e "." = false /\ beqb e "e" || beqb e "E" = true) as [E1 E2] by (destruct IE as [<-|[<-|[]]]; auto). rewrite E1, E2, RE. reflexivity.
  - exists (NFlt y). split; [|split; [discriminate|auto]]. unfold finish_number. cbn [app]. change (beqb "." ".") with true. cbv iota. unfold read_decimals.
    assert (ND' : no_digit (et ++ rest)). { destruct EX as [|e sg xs ng IE]; [now apply ends_no_digit|]. cbn [app no_digit]. destruct IE as [<-|[<-|[]]]; reflexivity. }
    rewrite span_digits_all by auto. destruct fp as [|f0 fp0]; [congruence|]. set (fp := f0 :: fp0) in *. rewrite TD. unfold finish_float. destruct et as [|e et'].
    + assert (x = 0%Z) as -> by (now inversion EX). rewrite Z.add_0_r in FP. cbn [app]. rewrite ends_no_exponent by auto. rewrite FP. reflexivity.
    + destruct (EXR ltac:(discriminate)) as (e' & et'' & EE & IE & RE). assert (e' = e /\ et'' = et') as [-> ->] by (split; congruence). cbn [app at_exponent]. assert (beqb e "e" || beqb e "E" = true) as E2 by (destruct IE as [<-|[<-|[]]]; auto). rewrite E2, RE. reflexivity.
Qed.
