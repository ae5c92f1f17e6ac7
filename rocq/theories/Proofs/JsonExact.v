(** Reading of printed floats: always possible, and exact for decimals of few digits. *)
From Coq Require Import QArith Qpower Lqa Lia.
From Verif.Model Require Import Json.
From Verif.Proofs Require Import IntFacts RoundFacts ShortestFacts FloatFacts JsonFloat JsonScale.
Open Scope byte_scope.
Open Scope Q_scope.

Definition set_sign (neg : bool) (x : f64) : f64 := match x with FFin _ m e => FFin neg m e | FInf _ => FInf neg | FNaN => FNaN end.
Lemma round_ratio_sign : forall neg neg' a b, round_ratio neg a b = set_sign neg (round_ratio neg' a b).
Proof.
  intros. unfold round_ratio. destruct (a =? 0)%N; [reflexivity|]. destruct (scaled a b (Z.max (-1074) (ratio_log2 a b - 52))) as [x y].
  destruct (round_half_even x y =? 2 ^ 53)%N; [destruct (971 <? _)%Z|destruct (971 <? _)%Z]; reflexivity.
Qed.

(** * Every printed float is read *)

Definition reads_as (text : bytes) (y : num) : Prop :=
  forall rest, number_ends rest ->
  match text ++ rest with
  | [] => False
  | b :: s' => if beqb b "-" then read_number false s' = Ok (y, rest) else is_digit b = true /\ read_number true (b :: s') = Ok (y, rest)
  end.

Lemma ryu_digits_head : forall d k, (0 < d)%N -> exists c t, ryu_digits d k = c :: t /\ is_digit c = true.
Proof.
  intros d k D. destruct (N_text_head d D) as (c & t & E & _ & C). unfold ryu_digits. rewrite E.
  cbv zeta. set (n := length (c :: t)). assert (n = S (length t)) as N by reflexivity. clearbody n.
  destruct ((0 <=? k) && (Z.of_nat n + k <=? 16))%Z; [exists c; eexists; split; [reflexivity|auto]|].
  destruct ((0 <? Z.of_nat n + k) && (Z.of_nat n + k <=? 16))%Z eqn:B.
  { apply andb_true_iff in B. rewrite Z.ltb_lt in B. destruct (Z.to_nat (Z.of_nat n + k)) as [|i] eqn:X; [lia|]. exists c. eexists. split; [reflexivity|auto]. }
  destruct ((-5 <? Z.of_nat n + k) && (Z.of_nat n + k <=? 0))%Z; [exists "0"; eexists; split; [reflexivity|reflexivity]|].
  destruct (n =? 1)%nat; exists c; eexists; (split; [reflexivity|auto]).
Qed.

Section Read.
  Context (neg : bool) (m : N) (e : Z) (Hm : (0 < m)%N) (C : f64_canonical (FFin neg m e) = true).
  Let p := log10_floor m e.

  Lemma read_printed : let '(d, k) := shortest (seq 1 17) neg m e p in
    forall m' e', scale_f64 10 (u64_to_f64 (fst (ryu_parts d k))) (snd (ryu_parts d k)) = Ok (FFin false m' e') ->
    reads_as (ryu_text neg m e) (NFlt (FFin neg m' e')).
  Proof.
    pose proof (shortest_digits neg m e Hm C) as SD. pose proof (printed_exponent neg m e Hm C) as PE. fold p in SD, PE. unfold ryu_text. fold p.
    destruct (shortest (seq 1 17) neg m e p) as [d k]. intros m' e' H rest R. rewrite (proj2 (N.eqb_neq m 0)) by lia.
    assert (RD : forall pos, read_number pos (ryu_digits d k ++ rest) = Ok (NFlt (FFin (negb pos) m' e'), rest)).
    { intro pos. rewrite read_ryu; auto; [|tauto|lia]. unfold float_from_parts. rewrite H. destruct pos; reflexivity. }
    destruct (ryu_digits_head d k ltac:(tauto)) as (c & t & E & D). rewrite E in *. cbn [app] in *.
    destruct neg; cbn [app].
    - change (beqb "-" "-") with true. cbv iota. exact (RD false).
    - rewrite (digit_not c "-") by auto. split; auto. exact (RD true).
  Qed.
End Read.

Lemma read_zero : forall neg e, reads_as (ryu_text neg 0 e) (NFlt (FFin neg 0 (-1074))).
Proof.
  intros neg e rest R. assert (RD : forall pos, read_number pos (lit "0.0" ++ rest) = Ok (NFlt (FFin (negb pos) 0 (-1074)), rest)).
  { intro pos. change (lit "0.0" ++ rest) with (["0"] ++ "." :: ["0"] ++ rest). rewrite read_point; auto.
    - cbn [fold_left app]. unfold finish_float. rewrite ends_no_exponent by auto. destruct pos; vm_compute; reflexivity.
    - intros c [<-|[]]. reflexivity.
    - intros c [<-|[]]. reflexivity.
    - discriminate.
    - exists "0", []. auto.
    - vm_compute. discriminate.
    - now apply ends_no_digit. }
  unfold ryu_text. destruct neg; [exact (RD false)|]. split; [reflexivity|exact (RD true)].
Qed.

Theorem read_float : forall neg m e, f64_canonical (FFin neg m e) = true -> exists m' e', f64_canonical (FFin neg m' e') = true /\ reads_as (ryu_text neg m e) (NFlt (FFin neg m' e')).
Proof.
  intros neg m e C. destruct (N.eq_dec m 0) as [->|N].
  - exists 0%N, (-1074)%Z. split; [reflexivity|]. apply read_zero.
  - pose proof (printed_reads neg m e ltac:(lia) C) as H. pose proof (read_printed neg m e ltac:(lia) C) as R.
    destruct (shortest (seq 1 17) neg m e (log10_floor m e)) as [d k]. destruct (H 10%nat) as (m' & e' & S & C'). exists m', e'. split; auto.
Qed.

(** * Exact reading *)

Lemma dval_cmp : forall d k d' k', dval d k == dval d' k' -> (d' mod 10 <> 0)%N -> (k <= k')%Z.
Proof.
  intros d k d' k' H M. destruct (Z_lt_le_dec k' k) as [L|L]; auto. exfalso. apply M. unfold dval in H. replace k with (k' + Z.of_N (Z.to_N (k - k')))%Z in H by lia. rewrite ten_add, ten_nat in H.
  assert (X : nq d' == nq (d * 10 ^ Z.to_N (k - k'))).
  { rewrite nq_mul. pose proof (ten_pos k'). apply (Qmult_inj_r _ _ (ten k')); [lra|]. rewrite <- H. ring. }
  apply nq_inj in X. rewrite X. replace (Z.to_N (k - k')) with (N.succ (Z.to_N (k - k') - 1)) by lia. rewrite N.pow_succ_r'. rewrite (N.mul_comm 10), N.mul_assoc. apply N.mod_mul. discriminate.
Qed.

Lemma pow10_exact : forall k, (0 <= k <= 22)%Z -> exists m e, pow10_f64 (Z.to_N k) = FFin false m e /\ (0 < m)%N /\ mag m e == ten k.
Proof.
  intros k K. assert (F : (5 ^ Z.to_N k < 2 ^ 53)%N). { apply N.le_lt_trans with (5 ^ 22)%N; [apply N.pow_le_mono_r; lia|reflexivity]. }
  pose proof (N.pow_nonzero 5 (Z.to_N k)) as NZ. destruct (exact_float false (5 ^ Z.to_N k) k ltac:(lia) ltac:(lia)) as (m & e & _ & P & V & R). exists m, e.
  assert (T : nq (5 ^ Z.to_N k) * two k == ten k).
  { rewrite <- (Z2N.id k) at 2 3 by lia. rewrite two_nat, ten_nat, <- nq_mul, <- N.pow_mul_l. reflexivity. }
  split; [|split; auto]. 2: now rewrite V. unfold pow10_f64. apply R; [lia|]. rewrite ratio_1, T, <- ten_nat, Z2N.id by lia. reflexivity.
Qed.

Theorem read_exact : forall neg d k m e, (0 < d < 10 ^ 15)%N -> (-22 <= k)%Z -> dec_to_f64 neg d k = FFin neg m e ->
  dval d k < ten 15 \/ ten 16 <= dval d k < ten 22 -> reads_as (ryu_text neg m e) (NFlt (FFin neg m e)).
Proof.
  intros neg d k m e D K E V.
  assert (C : f64_canonical (FFin neg m e) = true) by (rewrite <- E; apply dec_to_f64_canonical).
  destruct (dec_ratio d k) as (num & den & P & R & Q). pose proof (round_ratio_error neg num den m e P ltac:(rewrite <- Q; exact E)) as [EL EU]. rewrite R in EL, EU.
  assert (LOW : ten (-22) <= dval d k). { unfold dval. assert (1 <= nq d) by (change 1 with (nq 1); apply nq_le; lia). pose proof (ten_le (-22) k K). pose proof (ten_pos (-22)). pose proof (ten_pos k). nra. }
  assert (Hm : (0 < m)%N).
  { destruct (N.eq_dec m 0) as [->|]; [exfalso|lia]. rewrite mag_0 in *. destruct (canonical_cases _ _ _ C) as [[-> _]|[_ X]]; [|change (2 ^ 52)%N with 4503599627370496%N in X; lia].
    assert (X : (1 # 2) * two (-1074) < ten (-22)) by (vm_compute; reflexivity). lra. }
  assert (NORM : (-1022 <= Z.of_N (N.log2 m) + e)%Z).
  { destruct (Z_lt_le_dec (Z.of_N (N.log2 m) + e) (-1022)) as [L|L]; auto. exfalso.
    assert (e = (-1074)%Z) as ->.
    { destruct (canonical_cases _ _ _ C) as [[X _]|[X Y]]; auto. exfalso. assert (52 <= N.log2 m)%N; [|lia]. apply N.log2_le_pow2; lia. }
    destruct (N.log2_spec m Hm) as [_ U]. assert (M : (m < 2 ^ 52)%N) by (eapply N.lt_le_trans; [exact U|apply N.pow_le_mono_r; lia]).
    apply nq_lt in M. change (nq (2 ^ 52)) with (two 52) in M. unfold mag in EU. pose proof (two_pos (-1074)) as T.
    assert (X : (two 52 + (1 # 2)) * two (-1074) < ten (-22)) by (vm_compute; reflexivity). nra. }
  pose proof (fifteen neg m e Hm C d k D E NORM) as F. pose proof (shortest_digits neg m e Hm C) as SD. pose proof (read_printed neg m e Hm C) as RP.
  pose proof (shortest_reads_back (seq 1 17) neg m e (log10_floor m e) Hm C) as RB. cbv zeta in RB.
  destruct (shortest (seq 1 17) neg m e (log10_floor m e)) as [d' k']. cbn [fst snd] in RB. destruct F as [F F15]. destruct SD as [SD SM].
  apply RP. clear RP. assert (KK : (k <= k')%Z) by (eapply dval_cmp; [symmetry; exact F|exact SM]).
  change (10 ^ 15)%N with 1000000000000000%N in *. change (2 ^ 53)%N with 9007199254740992%N in *.
  (* a quotient or product with the right value is the number *)
  destruct (dec_ratio d' k') as (num' & den' & P' & R' & Q'). rewrite Q' in RB.
  assert (FIN : forall a b, (0 < b)%N -> ratio a b == dval d' k' -> round_ratio false a b = FFin false m e).
  { intros a b B X. rewrite (round_ratio_ext false a b num' den') by (auto; rewrite X, R'; reflexivity). rewrite (round_ratio_sign false neg), RB. reflexivity. }
  rewrite <- F in V. unfold ryu_parts. pose proof (N_text_bound d') as TB.
  destruct ((0 <=? k') && (Z.of_nat (length (N_text d')) + k' <=? 16))%Z eqn:C1; cbn [fst snd].
  - apply andb_true_iff in C1. rewrite !Z.leb_le in C1. destruct C1 as [C1 C2].
    assert (T16 : dval d' k' < ten 16).
    { unfold dval. rewrite <- (Z2N.id k') by auto. rewrite ten_nat, <- nq_mul. change (ten 16) with (nq (10 ^ 16)). apply nq_lt. eapply N.lt_le_trans; [apply N.mul_lt_mono_pos_r; [|exact TB]|].
      - pose proof (N.pow_nonzero 10 (Z.to_N k')). lia.
      - rewrite <- N.pow_add_r. apply N.pow_le_mono_r; lia. }
    destruct V as [V|V]; [|lra].
    assert (C53 : (d' * 5 ^ Z.to_N (k' + 1) < 2 ^ 53)%N).
    { unfold dval in V. rewrite <- (Z2N.id k') in V by auto. rewrite ten_nat, <- nq_mul in V. change (ten 15) with (nq 1000000000000000) in V. apply nq_lt in V.
      replace (Z.to_N (k' + 1)) with (N.succ (Z.to_N k')) by lia. rewrite N.pow_succ_r'. replace (10 ^ Z.to_N k')%N with (2 ^ Z.to_N k' * 5 ^ Z.to_N k')%N in V by (rewrite <- N.pow_mul_l; reflexivity).
      pose proof (N.pow_nonzero 2 (Z.to_N k')). change (2 ^ 53)%N with 9007199254740992%N. nia. }
    assert (P5 : (0 < d' * 5 ^ Z.to_N (k' + 1))%N) by (pose proof (N.pow_nonzero 5 (Z.to_N (k' + 1))); nia).
    destruct (exact_float false (d' * 5 ^ Z.to_N (k' + 1)) (k' + 1) ltac:(auto) ltac:(lia)) as (mf & ef & CF & PF & VF & RF).
    assert (T1 : nq (d' * 5 ^ Z.to_N (k' + 1)) * two (k' + 1) == nq (d' * 10 ^ Z.to_N (k' + 1))).
    { rewrite <- (Z2N.id (k' + 1)) at 2 by lia. rewrite two_nat, <- nq_mul, <- N.mul_assoc, <- N.pow_mul_l. reflexivity. }
    unfold u64_to_f64. rewrite (RF (d' * 10 ^ Z.to_N (k' + 1))%N 1%N) by (lia || (rewrite ratio_1, T1; reflexivity)).
    unfold scale_f64. change (Z.abs (-1) <=? 308)%Z with true. change (0 <=? -1)%Z with false. cbv iota.
    destruct (pow10_exact 1 ltac:(lia)) as (mp & ep & EP & PP & VP). change (Z.to_N (- -1)) with (Z.to_N 1). rewrite EP. destruct (div_value mf ef mp ep PP) as (a & b & B & AB & ->). f_equal. apply FIN; auto.
    rewrite AB, VF, VP, T1, nq_mul, <- ten_nat, Z2N.id by lia. unfold dval. rewrite ten_add. change (ten 1) with (10 # 1). field.
  - assert (D53 : (0 < d' < 2 ^ 53)%N) by (change (2 ^ 53)%N with 9007199254740992%N; lia).
    destruct (exact_float false d' 0 D53 ltac:(lia)) as (mf & ef & CF & PF & VF & RF). change (two 0) with 1 in *.
    unfold u64_to_f64. rewrite (RF d' 1%N) by (lia || (rewrite ratio_1; ring)).
    assert (K22 : (k' < 22)%Z).
    { apply ten_lt_inv. apply Qle_lt_trans with (dval d' k'). 2: destruct V as [V|[_ V]]; [eapply Qlt_trans; [exact V|reflexivity]|exact V]. unfold dval. assert (1 <= nq d') by (change 1 with (nq 1); apply nq_le; lia). pose proof (ten_pos k'). nra. }
    unfold scale_f64. replace (Z.abs k' <=? 308)%Z with true by (symmetry; apply Z.leb_le; lia).
    destruct (0 <=? k')%Z eqn:S.
    + apply Z.leb_le in S. destruct (pow10_exact k' ltac:(lia)) as (mp & ep & EP & PP & VP). rewrite EP. destruct (mul_value mf ef mp ep) as (a & b & B & AB & ->).
      assert (X : round_ratio false a b = FFin false m e) by (apply FIN; auto; rewrite AB, VF, VP; unfold dval; ring). rewrite X. reflexivity.
    + apply Z.leb_gt in S. destruct (pow10_exact (- k') ltac:(lia)) as (mp & ep & EP & PP & VP). rewrite EP. destruct (div_value mf ef mp ep PP) as (a & b & B & AB & ->). f_equal. apply FIN; auto.
      rewrite AB, VF, VP. unfold dval. rewrite ten_opp. pose proof (ten_pos k'). field. lra.
Qed.
