(** Numbers in JSON text: what serde_json reads from what it has written. *)
From Coq Require Import QArith Qpower Lqa Lia.
From Verif.Model Require Import Json.
From Verif.Proofs Require Import BytesFacts IntFacts FloatFacts RoundFacts ShortestFacts.
Open Scope byte_scope.

(** * Digit strings *)

Definition all_digits (s : bytes) : Prop := forall c, In c s -> is_digit c = true.
Definition push (n : N) (b : byte) : N := (n * 10 + digit_val b)%N.

Lemma all_digits_app : forall a b, all_digits a -> all_digits b -> all_digits (a ++ b).
Proof. intros a b A B c H. apply in_app_or in H. destruct H; auto. Qed.
Lemma all_digits_cons : forall c s, all_digits (c :: s) -> is_digit c = true /\ all_digits s.
Proof. intros c s H. split; [apply H; now left|]. intros x X. apply H. now right. Qed.
Lemma digit_below : forall c, is_digit c = true -> (digit_val c < 10)%N.
Proof. intros c H. destruct c; try discriminate H; reflexivity. Qed.

Lemma digits_N_snoc : forall s c, all_digits s -> is_digit c = true -> digits_N (s ++ [c]) = push (digits_N s) c.
Proof.
  intros s c A C. destruct (text_uint_digits s A) as (d & T).
  assert (TC : exists dc, text_uint [c] = Some dc /\ N.of_uint dc = digit_val c /\ Decimal.nb_digits dc = 1%nat).
  { destruct c; try discriminate C; eexists; repeat split. }
  destruct TC as (dc & TC & V & L). pose proof (uint_text_app s [c] d dc T TC) as X.
  assert (E : digits_N (s ++ [c]) = N.of_uint (Decimal.app d dc)).
  { unfold digits_N, text_N. destruct (s ++ [c]) eqn:Y; [destruct s; discriminate Y|]. rewrite X. reflexivity. }
  assert (E' : digits_N s = N.of_uint d). { unfold digits_N, text_N. destruct s; [cbn in T; injection T as <-; reflexivity|]. rewrite T. reflexivity. }
  rewrite E, E', of_uint_app, V, L. unfold push. cbn. lia.
Qed.
Lemma digits_N_fold : forall s, all_digits s -> digits_N s = fold_left push s 0%N.
Proof.
  intros s. induction s as [|c s IH] using rev_ind; intro A; [reflexivity|].
  rewrite fold_left_app. cbn [fold_left]. assert (S : all_digits s) by (intros x H; apply A, in_or_app; now left). assert (C : is_digit c = true) by (apply A, in_or_app; right; now left).
  rewrite digits_N_snoc, IH; auto.
Qed.
Lemma fold_push_ge : forall s n, (n <= fold_left push s n)%N.
Proof. induction s as [|c s IH]; intro n; cbn [fold_left]; [lia|]. specialize (IH (push n c)). unfold push in *. lia. Qed.
Lemma fold_push_shift : forall s n, fold_left push s n = (n * 10 ^ N.of_nat (length s) + fold_left push s 0)%N.
Proof.
  induction s as [|c s IH]; intro n; cbn [fold_left length]; [change (10 ^ N.of_nat 0)%N with 1%N; lia|]. rewrite (IH (push n c)), (IH (push 0 c)). change (push 0 c) with (digit_val c). replace (push n c) with (n * 10 + digit_val c)%N by reflexivity. rewrite Nat2N.inj_succ, N.pow_succ_r'. lia.
Qed.
Lemma fold_push_bound : forall s, all_digits s -> (fold_left push s 0 < 10 ^ N.of_nat (length s))%N.
Proof.
  induction s as [|c s IH]; intro A; cbn [fold_left length]; [reflexivity|]. apply all_digits_cons in A. destruct A as [C A]. rewrite fold_push_shift. specialize (IH A).
  pose proof (digit_below c C). rewrite Nat2N.inj_succ, N.pow_succ_r'. change (push 0 c) with (digit_val c). set (P := (10 ^ N.of_nat (length s))%N) in *.
  assert (digit_val c * P <= 9 * P)%N by (apply N.mul_le_mono_r; lia). lia.
Qed.
Lemma fold_push_zeros : forall k n, fold_left push (repeat "0" k) n = (n * 10 ^ N.of_nat k)%N.
Proof.
  induction k as [|k IH]; intro n; cbn [repeat fold_left]; [change (10 ^ N.of_nat 0)%N with 1%N; lia|]. rewrite IH, Nat2N.inj_succ, N.pow_succ_r'. change (push n "0") with (n * 10 + 0)%N. lia.
Qed.
Lemma N_text_fold : forall d, fold_left push (N_text d) 0%N = d.
Proof. intro d. rewrite <- digits_N_fold; [apply digits_N_text|]. intros c H. eapply N_text_digits; eauto. Qed.
Lemma N_text_all : forall d, all_digits (N_text d).
Proof. intros d c H. eapply N_text_digits; eauto. Qed.
Lemma N_text_bound : forall d, (d < 10 ^ N.of_nat (length (N_text d)))%N.
Proof. intro d. rewrite <- (N_text_fold d) at 1. apply fold_push_bound, N_text_all. Qed.
Lemma N_text_lower : forall d, (0 < d)%N -> (10 ^ N.of_nat (length (N_text d) - 1) <= d)%N.
Proof.
  intros d H. pose proof (N_text_fold d) as F. pose proof (N_text_all d) as A. unfold N_text in *.
  pose proof (DecimalN.Unsigned.to_of (N.to_uint d)) as U. rewrite DecimalN.Unsigned.of_to in U.
  destruct (uint_text (N.to_uint d)) as [|c t] eqn:E; [cbn in F; subst d; lia|]. cbn [fold_left] in F. rewrite fold_push_shift in F. cbn [length]. rewrite Nat.sub_succ, Nat.sub_0_r.
  assert (C : (1 <= digit_val c)%N).
  { destruct (N.to_uint d) as [|u|u|u|u|u|u|u|u|u|u] eqn:D; cbn in E; try discriminate E; injection E as <- _; try (cbn; lia).
    exfalso. unfold Decimal.unorm in U. cbn [Decimal.nzhead] in U. destruct (Decimal.nzhead u) eqn:Z; try discriminate U.
    - injection U as U. subst u. assert (D' : N.of_uint (N.to_uint d) = N.of_uint (Decimal.D0 Decimal.Nil)) by now rewrite D. rewrite DecimalN.Unsigned.of_to in D'. cbn in D'. lia.
    - exact (DecimalFacts.nzhead_nonzero u _ Z). }
  change (push 0 c) with (digit_val c) in F. set (P := (10 ^ N.of_nat (length t))%N) in *. assert (1 * P <= digit_val c * P)%N by (apply N.mul_le_mono_r; auto). lia.
Qed.
Lemma N_text_head : forall d, (0 < d)%N -> exists c t, N_text d = c :: t /\ beqb c "0" = false /\ is_digit c = true.
Proof.
  intros d H. pose proof (N_text_lower d H) as L. pose proof (N_text_fold d) as F. pose proof (N_text_all d) as A. destruct (N_text d) as [|c t] eqn:E; [destruct (N_text_nonempty d E)|].
  exists c, t. split; auto. apply all_digits_cons in A. destruct A as [C A]. split; auto. destruct (beqb c "0") eqn:Z; auto. exfalso. apply beqb_eq in Z. subst c.
  cbn [fold_left] in F. change (push 0 "0") with 0%N in F. pose proof (fold_push_bound t A). cbn [length] in L. rewrite Nat.sub_succ, Nat.sub_0_r in L. lia.
Qed.

(** * Reading digits *)

Lemma push_digit_ok : forall n b, (push n b <= u64_limit)%N -> push_digit n b = Some (push n b).
Proof. intros n b H. unfold push_digit. fold (push n b). apply N.leb_le in H. now rewrite H. Qed.
Lemma take_integer_all : forall s n, (fold_left push s n <= u64_limit)%N -> take_integer n s = (fold_left push s n, []).
Proof.
  induction s as [|c s IH]; intros n H; cbn [take_integer fold_left] in *; auto. rewrite push_digit_ok; [now apply IH|]. pose proof (fold_push_ge s (push n c)). lia.
Qed.
Lemma take_decimals_all : forall s n e, (fold_left push s n <= u64_limit)%N -> take_decimals n e s = (fold_left push s n, (e - Z.of_nat (length s))%Z).
Proof.
  induction s as [|c s IH]; intros n e H; cbn [take_decimals fold_left length] in *; [f_equal; lia|]. rewrite push_digit_ok; [rewrite IH by auto; f_equal; lia|]. pose proof (fold_push_ge s (push n c)). lia.
Qed.

(** What may follow a number. *)
Definition number_ends (s : bytes) : Prop :=
  match s with [] => True | b :: _ => is_digit b = false /\ beqb b "." = false /\ beqb b "e" = false /\ beqb b "E" = false end.
Lemma ends_no_digit : forall s, number_ends s -> match s with [] => True | c :: _ => is_digit c = false end.
Proof. intros [|b s]; auto. intros [H _]. exact H. Qed.
Lemma ends_no_exponent : forall s, number_ends s -> at_exponent s = None.
Proof. intros [|b s]; auto. intros (_ & _ & A & B). cbn. now rewrite A, B. Qed.

(** Digits, point, digits. *)
Lemma read_point : forall pos a b rest, all_digits a -> all_digits b -> b <> [] -> (exists c t, a = c :: t /\ (beqb c "0" = false \/ t = [])) ->
  (fold_left push (a ++ b) 0 <= u64_limit)%N -> match rest with [] => True | c :: _ => is_digit c = false end ->
  read_number pos (a ++ "." :: b ++ rest) =
    let* r := finish_float pos (fold_left push (a ++ b) 0%N) (- Z.of_nat (length b)) rest in Ok (NFlt (fst r), snd r).
Proof.
  intros pos a b rest A B NB HA L R. unfold read_number. rewrite span_digits_all; auto. destruct HA as (c & t & E & HA).
  rewrite fold_left_app in L. pose proof (fold_push_ge b (fold_left push a 0%N)) as G. subst a.
  assert (Z0 : beqb c "0" && negb (bytes_eqb t []) = false) by (destruct HA as [->| ->]; [reflexivity|now rewrite andb_false_r]). rewrite Z0.
  rewrite take_integer_all by lia. unfold finish_number. rewrite beqb_refl. unfold read_decimals. rewrite span_digits_all; auto.
  destruct b as [|x b]; [congruence|]. rewrite take_decimals_all by auto. rewrite <- fold_left_app. cbn [length bytes_eqb Z.of_nat]. reflexivity.
Qed.
(** Exponents as ryu writes them. *)
Lemma read_exponent_text : forall pos n start z rest, (Z.abs z <= 100000)%Z -> (Z.abs start <= 100000)%Z -> match rest with [] => True | c :: _ => is_digit c = false end ->
  read_exponent pos n start (int_text z ++ rest) = let* y := float_from_parts pos n (start + z) in Ok (y, rest).
Proof.
  intros pos n start z rest Z S R. unfold read_exponent.
  assert (G : forall d (plus : bool), (d <= 100000)%N -> (let '(ds, rest0) := span_digits (N_text d ++ rest) in
     match ds with
     | [] => json_fail
     | _ :: _ => let x := digits_N ds in
         if (i32_max <? x)%N then if negb (n =? 0)%N && plus then json_fail else Ok (FFin (negb pos) 0 (-1074), rest0)
         else let e := clamp_i32 (if plus then start + Z.of_N x else start - Z.of_N x) in let* y := float_from_parts pos n e in Ok (y, rest0)
     end) = let* y := float_from_parts pos n (if plus then start + Z.of_N d else start - Z.of_N d) in Ok (y, rest)).
  { intros d plus D. rewrite span_digits_all; [|apply N_text_all|auto]. destruct (N_text d) eqn:E; [destruct (N_text_nonempty d E)|]. rewrite <- E, digits_N_text. cbv zeta.
    assert (X : (i32_max <? d)%N = false) by (apply N.ltb_ge; unfold i32_max; lia). rewrite X.
    replace (clamp_i32 (if plus then (start + Z.of_N d)%Z else (start - Z.of_N d)%Z)) with (if plus then (start + Z.of_N d)%Z else (start - Z.of_N d)%Z) by (unfold clamp_i32; destruct plus; lia). reflexivity. }
  destruct z as [|q|q].
  - change (int_text 0 ++ rest) with ("0" :: rest). etransitivity; [exact (G 0%N true ltac:(lia))|reflexivity].
  - change (int_text (Z.pos q)) with (N_text (N.pos q)). pose proof (G (N.pos q) true ltac:(lia)) as X. destruct (N_text_head (N.pos q) ltac:(lia)) as (c & t & E & _ & C). rewrite E in *. cbn [app] in *.
    rewrite (digit_not c "+"), (digit_not c "-") by auto. etransitivity; [exact X|reflexivity].
  - change (int_text (Z.neg q)) with ("-" :: N_text (N.pos q)). cbn [app]. etransitivity; [exact (G (N.pos q) false ltac:(lia))|reflexivity].
Qed.

(** The significand and exponent read from what ryu prints for [d * 10^k]. *)
Definition ryu_parts (d : N) (k : Z) : N * Z :=
  if ((0 <=? k) && (Z.of_nat (length (N_text d)) + k <=? 16))%Z then ((d * 10 ^ Z.to_N (k + 1))%N, (-1)%Z) else (d, k).

Lemma read_ryu : forall pos d k rest, (0 < d < 10 ^ 17)%N -> (-500 <= k <= 500)%Z -> number_ends rest ->
  read_number pos (ryu_digits d k ++ rest) = let* y := float_from_parts pos (fst (ryu_parts d k)) (snd (ryu_parts d k)) in Ok (NFlt y, rest).
Proof.
  intros pos d k rest D K R. unfold ryu_digits, ryu_parts. pose proof (N_text_all d) as A. pose proof (N_text_fold d) as F. pose proof (N_text_bound d) as B.
  destruct (N_text_head d ltac:(lia)) as (c & t & E & C0 & CD). pose proof (N_text_lower d ltac:(lia)) as LO. set (T := N_text d) in *.
  assert (LT : (1 <= length T <= 17)%nat).
  { split; [rewrite E; cbn; lia|]. destruct (Nat.le_gt_cases (length T) 17) as [|G]; auto. exfalso.
    assert (10 ^ 17 <= 10 ^ N.of_nat (length T - 1))%N by (apply N.pow_le_mono_r; lia). lia. }
  pose proof (ends_no_digit _ R) as RD. pose proof (ends_no_exponent _ R) as RE.
  assert (FF : forall n e, finish_float pos n e rest = let* y := float_from_parts pos n e in Ok (y, rest)) by (intros; unfold finish_float; now rewrite RE).
  assert (LIM : (10 ^ 18 <= u64_limit)%N) by (vm_compute; discriminate).
  destruct ((0 <=? k) && (Z.of_nat (length T) + k <=? 16))%Z eqn:C1.
  - apply andb_true_iff in C1. rewrite !Z.leb_le in C1. destruct C1 as [C1 C2].
    replace ((T ++ repeat "0" (Z.to_nat k) ++ lit ".0") ++ rest) with ((T ++ repeat "0" (Z.to_nat k)) ++ "." :: ["0"] ++ rest) by (rewrite <- !app_assoc; reflexivity).
    assert (AL : all_digits (T ++ repeat "0" (Z.to_nat k))) by (apply all_digits_app; auto; intros x H; eapply repeat0_digits; eauto).
    assert (V : fold_left push ((T ++ repeat "0" (Z.to_nat k)) ++ ["0"]) 0%N = (d * 10 ^ Z.to_N (k + 1))%N).
    { rewrite <- app_assoc. change ["0"] with (repeat "0" 1). rewrite <- repeat_app, fold_left_app, F, fold_push_zeros. f_equal. f_equal. lia. }
    assert (BD : (d * 10 ^ Z.to_N (k + 1) <= 10 ^ 17)%N).
    { apply N.le_trans with (10 ^ N.of_nat (length T) * 10 ^ Z.to_N (k + 1))%N; [apply N.mul_le_mono_r; lia|]. rewrite <- N.pow_add_r. apply N.pow_le_mono_r; lia. }
    rewrite read_point; auto.
    + rewrite V, FF. cbn [fst snd length]. change (- Z.of_nat 1)%Z with (-1)%Z. destruct (float_from_parts pos (d * 10 ^ Z.to_N (k + 1)) (-1)); reflexivity.
    + intros x [<-|[]]. reflexivity.
    + discriminate.
    + exists c, (t ++ repeat "0" (Z.to_nat k)). split; [rewrite E; reflexivity|auto].
    + rewrite V. lia.
  - cbn [fst snd]. assert (KK : (k < 0 \/ 16 < Z.of_nat (length T) + k)%Z). { rewrite andb_false_iff, !Z.leb_gt in C1. lia. } clear C1.
    destruct ((0 <? Z.of_nat (length T) + k) && (Z.of_nat (length T) + k <=? 16))%Z eqn:C2.
    + apply andb_true_iff in C2. rewrite Z.ltb_lt, Z.leb_le in C2. destruct C2 as [C2 C3]. set (j := Z.to_nat (Z.of_nat (length T) + k)).
      assert (J : (0 < j < length T)%nat) by lia.
      replace ((firstn j T ++ "." :: skipn j T) ++ rest) with (firstn j T ++ "." :: skipn j T ++ rest) by (rewrite <- app_assoc; reflexivity).
      rewrite read_point; auto.
      * rewrite firstn_skipn, F, FF, skipn_length. replace (- Z.of_nat (length T - j))%Z with k by lia. destruct (float_from_parts pos d k); reflexivity.
      * intros x H. apply A. rewrite <- (firstn_skipn j T). apply in_or_app. now left.
      * intros x H. apply A. rewrite <- (firstn_skipn j T). apply in_or_app. now right.
      * intro H. apply (f_equal (@length _)) in H. rewrite skipn_length in H. cbn in H. lia.
      * exists c, (firstn (j - 1) t). split; auto. rewrite E. replace j with (S (j - 1)) at 1 by lia. reflexivity.
      * rewrite firstn_skipn, F. lia.
    + destruct ((-5 <? Z.of_nat (length T) + k) && (Z.of_nat (length T) + k <=? 0))%Z eqn:C3.
      * apply andb_true_iff in C3. rewrite Z.ltb_lt, Z.leb_le in C3. destruct C3 as [C3 C4]. set (j := Z.to_nat (- (Z.of_nat (length T) + k))).
        replace ((lit "0." ++ repeat "0" j ++ T) ++ rest) with (["0"] ++ "." :: (repeat "0" j ++ T) ++ rest) by reflexivity.
        assert (V : fold_left push (["0"] ++ repeat "0" j ++ T) 0%N = d).
        { rewrite app_assoc. change (["0"] ++ repeat "0" j) with (repeat "0" (S j)). rewrite fold_left_app, fold_push_zeros, N.mul_0_l. exact F. }
        rewrite read_point; auto.
        -- rewrite V, FF, app_length, repeat_length. replace (- Z.of_nat (j + length T))%Z with k by lia. destruct (float_from_parts pos d k); reflexivity.
        -- intros x [<-|[]]. reflexivity.
        -- apply all_digits_app; auto. intros x H. eapply repeat0_digits; eauto.
        -- intro H. apply app_eq_nil in H. destruct H as [_ H]. rewrite E in H. discriminate H.
        -- exists "0", []. auto.
        -- rewrite V. lia.
      * destruct (Nat.eqb_spec (length T) 1) as [L1|L1].
        -- rewrite <- app_assoc. cbn [app]. replace (Z.of_nat (length T) + k - 1)%Z with k by lia. unfold read_number. rewrite span_digits_all; auto. rewrite E in L1 |- *. destruct t; [|discriminate L1].
           rewrite andb_false_r. rewrite <- E. rewrite take_integer_all by (rewrite F; lia). rewrite F. unfold finish_number. change (beqb "e" ".") with false. change (beqb "e" "e" || beqb "e" "E") with true. cbv iota.
           rewrite read_exponent_text by (auto; cbn; lia). cbn [length Z.of_nat Z.add]. destruct (float_from_parts pos d k); reflexivity.
        -- replace ((firstn 1 T ++ "." :: skipn 1 T ++ "e" :: int_text (Z.of_nat (length T) + k - 1)) ++ rest) with
             (firstn 1 T ++ "." :: skipn 1 T ++ ("e" :: int_text (Z.of_nat (length T) + k - 1) ++ rest)) by (rewrite <- !app_assoc; cbn; rewrite <- !app_assoc; reflexivity).
           rewrite read_point; auto.
           ++ rewrite firstn_skipn, F, skipn_length. unfold finish_float, at_exponent. change (beqb "e" "e" || beqb "e" "E") with true. cbv iota.
              rewrite read_exponent_text by (auto; lia). replace (- Z.of_nat (length T - 1) + (Z.of_nat (length T) + k - 1))%Z with k by lia. destruct (float_from_parts pos d k); reflexivity.
           ++ intros x H. apply A. rewrite <- (firstn_skipn 1 T). apply in_or_app. now left.
           ++ intros x H. apply A. rewrite <- (firstn_skipn 1 T). apply in_or_app. now right.
           ++ intro H. apply (f_equal (@length _)) in H. rewrite skipn_length in H. cbn in H. lia.
           ++ exists c, []. split; [rewrite E; reflexivity|auto].
           ++ rewrite firstn_skipn, F. lia.
Qed.

(** Integers. *)
Lemma read_int : forall z rest, (- 2 ^ 63 <= z < 2 ^ 63)%Z -> number_ends rest ->
  match int_text z ++ rest with
  | [] => False
  | b :: s' => if beqb b "-" then read_number false s' = Ok (NInt z, rest) else is_digit b = true /\ read_number true (b :: s') = Ok (NInt z, rest)
  end.
Proof.
  intros z rest Z R. change (2 ^ 63)%Z with 9223372036854775808%Z in Z.
  assert (G : forall pos d, (d <= u64_limit)%N -> read_number pos (N_text d ++ rest) = finish_number pos d 0 true rest).
  { intros pos d D. unfold read_number. rewrite span_digits_all; [|apply N_text_all|now apply ends_no_digit]. pose proof (N_text_fold d) as F.
    destruct (N_text d) as [|c t] eqn:E; [destruct (N_text_nonempty d E)|].
    assert (Z0 : beqb c "0" && negb (bytes_eqb t []) = false).
    { destruct (N.eq_dec d 0) as [->|D0]; [cbn in E; injection E as <- <-; reflexivity|]. destruct (N_text_head d ltac:(lia)) as (c' & t' & E' & X & _). rewrite E in E'. injection E' as <- <-. now rewrite X. }
    rewrite Z0, take_integer_all by (rewrite F; auto). rewrite F. reflexivity. }
  assert (P : forall d, finish_number true d 0 true rest = Ok (NInt (Z.of_N d), rest)).
  { intro d. unfold finish_number. destruct rest as [|b s]; auto. destruct R as (_ & A & B & C). now rewrite A, B, C. }
  assert (U : u64_limit = 18446744073709551615%N) by reflexivity.
  destruct z as [|q|q].
  - change (int_text 0 ++ rest) with ("0" :: rest). change (beqb "0" "-") with false. cbv iota. split; auto. change ("0" :: rest) with (N_text 0 ++ rest). rewrite G by lia. apply P.
  - change (int_text (Z.pos q)) with (N_text (N.pos q)). destruct (N_text_head (N.pos q) ltac:(lia)) as (c & t & E & _ & C). pose proof (G true (N.pos q) ltac:(lia)) as X. rewrite P in X. rewrite E in *. cbn [app] in *.
    rewrite (digit_not c "-") by auto. split; auto.
  - change (int_text (Z.neg q)) with ("-" :: N_text (N.pos q)). cbn [app]. change (beqb "-" "-") with true. cbv iota. rewrite G by lia. unfold finish_number.
    assert (X : ((1 <=? N.pos q) && (N.pos q <=? 9223372036854775808))%N = true) by (apply andb_true_iff; rewrite !N.leb_le; lia).
    destruct rest as [|b s]; [now rewrite X|]. destruct R as (_ & A & B & C). rewrite A, B, C, X. reflexivity.
Qed.
