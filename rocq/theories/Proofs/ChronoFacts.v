(** Reading timestamps. *)
From Coq Require Import ZArith ZifyBool Lia.
From Verif.Model Require Import Chrono.
From Verif.Spec Require Import SpecDocument SpecTime.
From Verif.Proofs Require Import BytesFacts IntFacts TimestampFacts FloatFacts JsonFloat.
Open Scope byte_scope.

(** * Digits *)

Definition shows (s : bytes) (n : N) : Prop := all_digits s /\ s <> [] /\ fold_left push s 0%N = n.
Lemma shows_app : forall a b x y, shows a x -> shows b y -> shows (a ++ b) (x * 10 ^ N.of_nat (length b) + y).
Proof.
  intros a b x y (A & NA & X) (B & _ & Y). split; [now apply all_digits_app|]. split; [intro H; now apply app_eq_nil in H|]. rewrite fold_left_app, fold_push_shift, X, Y. reflexivity.
Qed.
Lemma shows_pad2 : forall n, (n < 100)%N -> shows (pad2 n) n.
Proof.
  intros n H. assert (Q : forallb is_digit (pad2 n) && (fold_left push (pad2 n) 0 =? n)%N = true).
  { revert n H. apply (below_all 100 (fun n => forallb is_digit (pad2 n) && (fold_left push (pad2 n) 0 =? n)%N)). vm_compute. reflexivity. }
  apply andb_true_iff in Q. destruct Q as [Q1 Q2]. apply N.eqb_eq in Q2. rewrite forallb_forall in Q1. split; [exact Q1|]. split; [discriminate|exact Q2].
Qed.
Lemma shows_pad3 : forall n, (n < 1000)%N -> shows (pad3 n) n.
Proof.
  intros n H. assert (Q : forallb is_digit (pad3 n) && (fold_left push (pad3 n) 0 =? n)%N = true).
  { revert n H. apply (below_all 1000 (fun n => forallb is_digit (pad3 n) && (fold_left push (pad3 n) 0 =? n)%N)). vm_compute. reflexivity. }
  apply andb_true_iff in Q. destruct Q as [Q1 Q2]. apply N.eqb_eq in Q2. rewrite forallb_forall in Q1. split; [exact Q1|]. split; [discriminate|exact Q2].
Qed.
Lemma shows_pad4 : forall n, (n < 10000)%N -> shows (pad2 (n / 100) ++ pad2 (n mod 100)) n.
Proof.
  intros n H. replace n with (n / 100 * 10 ^ N.of_nat (length (pad2 (n mod 100))) + n mod 100)%N at 3.
  - apply shows_app; apply shows_pad2; [apply N.div_lt_upper_bound; lia|apply N.mod_lt; lia].
  - change (10 ^ N.of_nat (length (pad2 (n mod 100))))%N with 100%N. pose proof (N.div_mod n 100). lia.
Qed.
Lemma shows_text : forall n, shows (N_text n) n.
Proof. intro n. split; [apply N_text_all|]. split; [apply N_text_nonempty|apply N_text_fold]. Qed.

Definition no_digit (s : bytes) : Prop := match s with [] => True | c :: _ => is_digit c = false end.
Lemma scan_shows : forall max s n rest, shows s n -> no_digit rest -> match max with Some k => length s <= k | None => True end -> scan_number max (s ++ rest) = Some (n, rest).
Proof.
  intros max s n rest (A & NE & V) R L. unfold scan_number. rewrite span_digits_all by (auto; destruct rest; auto). rewrite <- (digits_N_fold s A) in V.
  destruct max as [k|]; [rewrite firstn_all2, skipn_all2 by auto; cbn [app]|]; destruct s; try congruence; now rewrite V.
Qed.
Lemma trim_digits : forall s n rest, shows s n -> trim_left (s ++ rest) = s ++ rest.
Proof.
  intros [|c s] n rest (A & NE & _); [congruence|]. cbn [app trim_left]. assert (D : is_digit c = true) by (apply A; now left). replace (is_space c) with false; auto. destruct c; try discriminate D; reflexivity.
Qed.
Lemma scan_two_pad : forall n rest, (n < 100)%N -> no_digit rest -> scan_two (pad2 n ++ rest) = Some (n, rest).
Proof. intros n rest H R. pose proof (shows_pad2 n H) as S. unfold scan_two. rewrite (trim_digits _ _ _ S). apply scan_shows; auto. Qed.

Lemma scan_year_text : forall y rest, no_digit rest -> scan_year (year_text y ++ rest) = Some (y, rest).
Proof.
  intros y rest R. unfold year_text, scan_year. destruct ((0 <=? y) && (y <=? 9999))%Z eqn:Y.
  - assert (S : shows (pad2 (Z.to_N y / 100) ++ pad2 (Z.to_N y mod 100)) (Z.to_N y)) by (apply shows_pad4; lia). rewrite (trim_digits _ _ _ S). pose proof (scan_shows (Some 4) _ _ rest S R (le_n 4)) as E.
    destruct S as (A & _ & _). destruct (pad2 (Z.to_N y / 100) ++ pad2 (Z.to_N y mod 100)) as [|c t] eqn:F; [discriminate F|]. cbn [app] in *.
    assert (D : is_digit c = true) by (apply A; now left). rewrite !(digit_not c) by auto. rewrite E. cbn [option_map fst snd]. rewrite Z2N.id by lia. reflexivity.
  - cbv zeta. set (t := if (Z.to_N (Z.abs y) <=? 9999)%N then pad2 (Z.to_N (Z.abs y) / 100) ++ pad2 (Z.to_N (Z.abs y) mod 100) else N_text (Z.to_N (Z.abs y))).
    assert (S : shows t (Z.to_N (Z.abs y))). { unfold t. destruct (N.leb_spec (Z.to_N (Z.abs y)) 9999); [apply shows_pad4; lia|apply shows_text]. }
    pose proof (scan_shows None t _ rest S R I) as E. destruct (y <? 0)%Z eqn:L; cbn [app trim_left].
    + change (is_space "-") with false. cbv iota. change (beqb "-" "-") with true. cbv iota. rewrite E. cbn [option_map fst snd]. do 2 f_equal. lia.
    + change (is_space "+") with false. cbv iota. change (beqb "+" "-") with false. change (beqb "+" "+") with true. cbv iota. rewrite E. cbn [option_map fst snd]. do 2 f_equal. lia.
Qed.

Lemma scan_fraction_text : forall n, (n < 1000000000)%N -> forall c z, is_digit c = false -> beqb c "." = false -> scan_fraction (fraction_text n ++ c :: z) = Some (n, c :: z).
Proof.
  intros n H c z NC NP.
  assert (A : (n / 1000000 < 1000)%N) by (apply N.div_lt_upper_bound; lia).
  assert (B : (n / 1000 mod 1000 < 1000)%N) by (apply N.mod_lt; lia). assert (C : (n mod 1000 < 1000)%N) by (apply N.mod_lt; lia).
  assert (D : (n = n / 1000000 * 1000000 + n / 1000 mod 1000 * 1000 + n mod 1000)%N).
  { pose proof (N.div_mod n 1000). pose proof (N.div_mod (n / 1000) 1000). rewrite N.div_div in H1 by lia. change (1000 * 1000)%N with 1000000%N in H1. lia. }
  assert (G : forall s v k, shows s v -> length s = k -> k <= 9 -> (v * 10 ^ N.of_nat (9 - k))%N = n -> scan_fraction (("." :: s) ++ c :: z) = Some (n, c :: z)).
  { intros s v k (AD & NE & V) L K E. cbn [app scan_fraction]. change (beqb "." ".") with true. cbv iota. rewrite span_digits_all by auto.
    destruct s as [|c' s]; [congruence|]. rewrite firstn_all2 by (rewrite L; auto). rewrite digits_N_fold by auto. rewrite V, L, E. reflexivity. }
  pose proof (shows_pad3 _ A) as SA. pose proof (shows_pad3 _ B) as SB. pose proof (shows_pad3 _ C) as SC.
  unfold fraction_text. destruct (n =? 0)%N eqn:Z; [apply N.eqb_eq in Z; subst; cbn [app scan_fraction]; now rewrite NP|]. destruct (n mod 1000000 =? 0)%N eqn:M6; [|destruct (n mod 1000 =? 0)%N eqn:M3].
  - apply N.eqb_eq in M6. eapply (G _ _ 3 SA); [reflexivity|lia|]. change (10 ^ N.of_nat (9 - 3))%N with 1000000%N. pose proof (N.div_mod n 1000000). lia.
  - apply N.eqb_eq in M3. eapply (G _ _ 6 (shows_app _ _ _ _ SA SB)); [reflexivity|lia|]. change (10 ^ N.of_nat (9 - 6))%N with 1000%N. change (10 ^ N.of_nat (length (pad3 (n / 1000 mod 1000))))%N with 1000%N. lia.
  - eapply (G _ _ 9 (shows_app _ _ _ _ SA (shows_app _ _ _ _ SB SC))); [reflexivity|lia|]. change (10 ^ N.of_nat (9 - 9))%N with 1%N. change (10 ^ N.of_nat (length (pad3 (n mod 1000))))%N with 1000%N.
    change (10 ^ N.of_nat (length (pad3 (n / 1000 mod 1000) ++ pad3 (n mod 1000))))%N with 1000000%N. lia.
Qed.

(** * The calendar *)

Lemma days_in_spec : forall y m, (1 <= m <= 12)%N -> days_in y m = month_days y m.
Proof.
  intros y m H. assert (Q : (y mod 400 = 0 -> y mod 4 = 0)%Z) by (intro C; Z.div_mod_to_equations; lia).
  assert (L : is_leap y = leap_year y).
  { unfold is_leap, leap_year. destruct (Z.eqb_spec (y mod 4) 0), (Z.eqb_spec (y mod 100) 0), (Z.eqb_spec (y mod 400) 0); try reflexivity; exfalso; auto. }
  unfold days_in. rewrite L. assert (X : (m = 1 \/ m = 2 \/ m = 3 \/ m = 4 \/ m = 5 \/ m = 6 \/ m = 7 \/ m = 8 \/ m = 9 \/ m = 10 \/ m = 11 \/ m = 12)%N) by lia.
  repeat (destruct X as [->|X]; [reflexivity|]). subst. reflexivity.
Qed.

Theorem time_read_local : forall t c z o, real_time t -> is_digit c = false -> beqb c "." = false -> scan_offset (trim_left (c :: z)) = Some (o, []) ->
  time_read (local_text t ++ c :: z) = to_utc (t_year t) (t_month t) (t_day t) (t_hour t) (t_min t) (shown_sec t) (t_nano t mod 1000000000) o.
Proof.
  intros t c z o [V DM] NC NP SO. unfold valid_timestamp in V. rewrite !andb_true_iff in V. destruct V as [[[[[[[[Y1 Y2] [M1 M2]] [D1 D2]] HH] MM] SS] NN] LL].
  assert (SH : (shown_sec t <= 60)%N) by (apply N.ltb_lt in SS; unfold shown_sec; destruct (1000000000 <=? t_nano t)%N; lia).
  unfold time_read, local_text. repeat first [rewrite <- app_assoc | rewrite <- app_comm_cons]. rewrite scan_year_text by reflexivity. cbn [obind fst snd].
  match goal with |- context [scan_char "-" ("-" :: ?s)] => change (scan_char "-" ("-" :: s)) with (Some s) end. cbn [obind].
  rewrite scan_two_pad by (lia || reflexivity). cbn [obind fst snd].
  match goal with |- context [scan_char "-" ("-" :: ?s)] => change (scan_char "-" ("-" :: s)) with (Some s) end. cbn [obind].
  rewrite scan_two_pad by (lia || reflexivity). cbn [obind fst snd]. change (beqb "T" "t") with false. change (beqb "T" "T") with true. cbn [orb obind].
  rewrite scan_two_pad by (lia || reflexivity). cbn [obind fst snd].
  match goal with |- context [scan_char ":" (":" :: ?s)] => change (scan_char ":" (":" :: s)) with (Some s) end. cbn [obind].
  rewrite scan_two_pad by (lia || reflexivity). cbn [obind fst snd].
  match goal with |- context [scan_char ":" (":" :: ?s)] => change (scan_char ":" (":" :: s)) with (Some s) end. cbn [obind].
  assert (ND : no_digit (fraction_text (t_nano t mod 1000000000) ++ c :: z)). { unfold fraction_text. repeat match goal with |- context [if ?b then _ else _] => destruct b end; try reflexivity; exact NC. }
  rewrite scan_two_pad by (lia || exact ND). cbn [obind fst snd]. rewrite scan_fraction_text by (auto; apply N.mod_lt; lia). cbn [obind fst snd].
  rewrite SO. reflexivity.
Qed.

Lemma to_utc_same : forall t, real_time t -> to_utc (t_year t) (t_month t) (t_day t) (t_hour t) (t_min t) (shown_sec t) (t_nano t mod 1000000000) 0 = Some t.
Proof.
  intros t [V DM]. unfold valid_timestamp in V. rewrite !andb_true_iff in V. destruct V as [[[[[[[[Y1 Y2] [M1 M2]] [D1 D2]] HH] MM] SS] NN] LL].
  assert (SH : (shown_sec t <= 60)%N) by (apply N.ltb_lt in SS; unfold shown_sec; destruct (1000000000 <=? t_nano t)%N; lia).
  unfold to_utc. change (Z.abs 0 <? 1440)%Z with true.
  rewrite days_in_spec by lia. rewrite Y1, Y2. replace (1 <=? t_month t)%N with true by lia. replace (t_month t <=? 12)%N with true by lia. replace (1 <=? t_day t)%N with true by lia.
  apply N.leb_le in DM. rewrite DM. rewrite HH, MM. apply N.leb_le in SH. rewrite SH. cbn [andb].
  assert (HM : (0 <= Z.of_N (t_hour t * 60 + t_min t) - 0 < 1440)%Z) by lia. rewrite Z.mod_small by lia.
  replace (Z.of_N (t_hour t * 60 + t_min t) - 0 <? 0)%Z with false by lia. replace (1440 <=? Z.of_N (t_hour t * 60 + t_min t) - 0)%Z with false by lia.
  rewrite Z.sub_0_r, N2Z.id. replace ((t_hour t * 60 + t_min t) / 60)%N with (t_hour t) by (apply N.div_unique with (r := t_min t); lia).
  replace ((t_hour t * 60 + t_min t) mod 60)%N with (t_min t) by (apply N.mod_unique with (q := t_hour t); lia).
  unfold shown_sec in *. destruct t as [y mo d h mi s n]. cbn [t_year t_month t_day t_hour t_min t_sec t_nano] in *.
  destruct (1000000000 <=? n)%N eqn:L.
  - assert (s = 59)%N by lia. subst s. change (59 + 1 =? 60)%N with true. cbv iota. rewrite Y1, Y2. cbn [andb]. do 2 f_equal.
    assert (Q : (n mod 1000000000 = n - 1000000000)%N) by (symmetry; apply N.mod_unique with (q := 1%N); lia). rewrite Q. lia.
  - replace (s =? 60)%N with false by lia. rewrite Y1, Y2. cbn [andb]. do 2 f_equal. apply N.mod_small. lia.
Qed.

Theorem time_read_back : forall t, real_time t -> time_read (time_text t) = Some t.
Proof.
  intros t R. assert (E : time_text t = local_text t ++ ["Z"]) by (unfold time_text, local_text; now repeat first [rewrite <- app_assoc | rewrite <- app_comm_cons]).
  rewrite E, (time_read_local t "Z" [] 0%Z) by auto. now apply to_utc_same.
Qed.

(** * Offsets *)

Lemma leap_step : forall y, days_before_year (y + 1) = (days_before_year y + 337 + Z.of_N (month_days y 2))%Z.
Proof.
  intro y. unfold days_before_year, month_days, leap_year. change (2 =? 2)%N with true. cbv iota.
  destruct (Z.eqb_spec (y mod 4) 0), (Z.eqb_spec (y mod 100) 0), (Z.eqb_spec (y mod 400) 0); cbn [andb orb negb]; Z.div_mod_to_equations; lia.
Qed.
Lemma twelve : forall P : N -> Prop, P 1%N -> P 2%N -> P 3%N -> P 4%N -> P 5%N -> P 6%N -> P 7%N -> P 8%N -> P 9%N -> P 10%N -> P 11%N -> P 12%N -> forall m, (1 <= m <= 12)%N -> P m.
Proof.
  intros P A B C D E F G H I J K L m M. assert (X : (m = 1 \/ m = 2 \/ m = 3 \/ m = 4 \/ m = 5 \/ m = 6 \/ m = 7 \/ m = 8 \/ m = 9 \/ m = 10 \/ m = 11 \/ m = 12)%N) by lia.
  repeat (destruct X as [->|X]; [assumption|]). now subst.
Qed.
Lemma month_step : forall y m, (1 <= m <= 11)%N -> days_before_month y (N.to_nat (m + 1) - 1) = (days_before_month y (N.to_nat m - 1) + Z.of_N (month_days y m))%Z.
Proof.
  intros y m H. replace (N.to_nat (m + 1) - 1) with (S (N.to_nat m - 1)) by lia. cbn [days_before_month]. do 2 f_equal. f_equal. lia.
Qed.
Lemma year_days : forall y, days_before_month y 11 = (306 + Z.of_N (month_days y 2))%Z.
Proof. intro y. unfold month_days. cbn. destruct (leap_year y); reflexivity. Qed.
Lemma month_long : forall y m, (28 <= month_days y m <= 31)%N.
Proof. intros y m. unfold month_days. repeat match goal with |- context [if ?b then _ else _] => destruct b end; lia. Qed.

Definition real_day (y : Z) (m d : N) : Prop := (1 <= m <= 12)%N /\ (1 <= d <= month_days y m)%N.
Lemma next_day_number : forall y m d y' m' d', real_day y m d -> next_day y m d = (y', m', d') -> real_day y' m' d' /\ day_number y' m' d' = (day_number y m d + 1)%Z.
Proof.
  intros y m d y' m' d' [M D] H. unfold next_day in H. rewrite days_in_spec in H by auto. destruct (d <? month_days y m)%N eqn:A.
  - injection H as <- <- <-. split; [split; lia|]. unfold day_number. lia.
  - assert (d = month_days y m) by lia. destruct (m <? 12)%N eqn:B; injection H as <- <- <-.
    + pose proof (month_long y (m + 1)). split; [split; lia|]. unfold day_number. rewrite month_step by lia. lia.
    + assert (m = 12)%N by lia. subst m. split; [split; [lia|change (month_days (y + 1) 1) with 31%N; lia]|]. unfold day_number. rewrite leap_step. change (N.to_nat 12 - 1) with 11. rewrite year_days.
      change (month_days y 12) with 31%N in *. change (days_before_month (y + 1) (N.to_nat 1 - 1)) with 0%Z. lia.
Qed.
Lemma previous_day_number : forall y m d y' m' d', real_day y m d -> previous_day y m d = (y', m', d') -> real_day y' m' d' /\ day_number y' m' d' = (day_number y m d - 1)%Z.
Proof.
  intros y m d y' m' d' [M D] H. unfold previous_day in H. destruct (1 <? d)%N eqn:A.
  - injection H as <- <- <-. split; [split; lia|]. unfold day_number. lia.
  - assert (d = 1)%N by lia. destruct (1 <? m)%N eqn:B; injection H as <- <- <-.
    + rewrite days_in_spec by lia. pose proof (month_long y (m - 1)). split; [split; lia|]. unfold day_number. replace (N.to_nat m - 1) with (N.to_nat (m - 1 + 1) - 1) by lia. rewrite month_step by lia. lia.
    + assert (m = 1)%N by lia. subst m. split; [split; [lia|change (month_days (y - 1) 12) with 31%N; lia]|]. unfold day_number. pose proof (leap_step (y - 1)) as L. replace (y - 1 + 1)%Z with y in L by lia. rewrite L.
      change (N.to_nat 12 - 1) with 11. rewrite year_days. change (days_before_month y (N.to_nat 1 - 1)) with 0%Z. lia.
Qed.

Theorem to_utc_instant : forall y mo d h mi s nano offset t, (nano < 1000000000)%N -> to_utc y mo d h mi s nano offset = Some t ->
  real_time t /\ minute_of t = (minute_number y mo d h mi - offset)%Z /\ shown_sec t = s /\ (t_nano t mod 1000000000 = nano)%N.
Proof.
  intros y mo d h mi s nano offset t NB H. unfold to_utc in H.
  destruct ((-262143 <=? y)%Z && (y <=? 262142)%Z && (1 <=? mo)%N && (mo <=? 12)%N && (1 <=? d)%N && (d <=? days_in y mo)%N && (h <? 24)%N && (mi <? 60)%N && (s <=? 60)%N && (Z.abs offset <? 1440)%Z) eqn:C; [|discriminate H].
  rewrite !andb_true_iff in C. destruct C as [[[[[[[[[Y1 Y2] M1] M2] D1] D2] HH] MM] SS] OO]. rewrite days_in_spec in D2 by lia.
  assert (RD : real_day y mo d) by (split; lia). set (minutes := (Z.of_N (h * 60 + mi) - offset)%Z) in *.
  remember (if (s =? 60)%N then (59%N, (nano + 1000000000)%N) else (s, nano)) as sn eqn:SN. destruct sn as [s' nano'].
  remember (if (minutes <? 0)%Z then previous_day y mo d else if (1440 <=? minutes)%Z then next_day y mo d else (y, mo, d)) as dd eqn:DD. destruct dd as [[y' mo'] d'].
  assert (T : real_day y' mo' d' /\ (day_number y' mo' d' * 1440 + minutes mod 1440 = day_number y mo d * 1440 + minutes)%Z).
  { destruct (minutes <? 0)%Z eqn:L0; [|destruct (1440 <=? minutes)%Z eqn:L1].
    - destruct (previous_day_number _ _ _ _ _ _ RD (eq_sym DD)) as [R E]. split; auto. rewrite E. replace (minutes mod 1440)%Z with (minutes + 1440)%Z by (apply Z.mod_unique with (q := (-1)%Z); lia). lia.
    - destruct (next_day_number _ _ _ _ _ _ RD (eq_sym DD)) as [R E]. split; auto. rewrite E. replace (minutes mod 1440)%Z with (minutes - 1440)%Z by (apply Z.mod_unique with (q := 1%Z); lia). lia.
    - injection DD as -> -> ->. split; auto. rewrite Z.mod_small by lia. lia. }
  destruct T as [[RM RD'] E]. destruct ((-262143 <=? y') && (y' <=? 262142))%Z eqn:YY; [|discriminate H].
  assert (HT : t = {| t_year := y'; t_month := mo'; t_day := d'; t_hour := (Z.to_N (minutes mod 1440) / 60)%N; t_min := (Z.to_N (minutes mod 1440) mod 60)%N; t_sec := s'; t_nano := nano' |}) by congruence. subst t. clear H.
  pose proof (Z.mod_pos_bound minutes 1440 ltac:(lia)) as MB. set (u := Z.to_N (minutes mod 1440)) in *. assert (U : Z.of_N u = (minutes mod 1440)%Z) by (unfold u; lia). assert (UB : (u < 1440)%N) by lia.
  pose proof (N.div_mod u 60 ltac:(lia)) as UD. pose proof (N.mod_lt u 60 ltac:(lia)) as UM. assert (UQ : (u / 60 < 24)%N) by (apply N.div_lt_upper_bound; lia).
  set (q := (u / 60)%N) in *. set (r := (u mod 60)%N) in *. clearbody q r. pose proof (month_long y' mo').
  assert (S2 : (s' < 60)%N /\ (nano' < 2000000000)%N /\ ((nano' <? 1000000000) || (s' =? 59))%N = true /\ (if (1000000000 <=? nano')%N then s' + 1 else s')%N = s /\ (nano' mod 1000000000 = nano)%N).
  { destruct (s =? 60)%N eqn:S6; injection SN as -> ->.
    - repeat split; try lia. replace (1000000000 <=? nano + 1000000000)%N with true by lia. lia. symmetry. apply N.mod_unique with (q := 1%N); lia.
    - repeat split; try lia. replace (1000000000 <=? nano)%N with false by lia. reflexivity. apply N.mod_small; lia. }
  destruct S2 as (S2 & N2 & L2 & V2 & W2). split; [|split; [|split; [exact V2|exact W2]]].
  - split; [|cbn [t_year t_month t_day]; lia]. unfold valid_timestamp. cbn [t_year t_month t_day t_hour t_min t_sec t_nano]. rewrite L2. lia.
  - unfold minute_of, minute_number. cbn [t_year t_month t_day t_hour t_min]. unfold minutes in *. lia.
Qed.

Lemma pad2_digits : forall n, (n < 100)%N -> forall z, scan_digits2 (pad2 n ++ z) = Some (n, z).
Proof.
  intros n H z. assert (Q : match pad2 n with [a; b] => is_digit a && is_digit b && ((digit_val a * 10 + digit_val b =? n)%N) | _ => false end = true).
  { revert n H. apply (below_all 100 (fun n => match pad2 n with [a; b] => is_digit a && is_digit b && ((digit_val a * 10 + digit_val b =? n)%N) | _ => false end)). vm_compute. reflexivity. }
  destruct (pad2 n) as [|a [|b [|x l]]]; try discriminate Q. apply andb_true_iff in Q. destruct Q as [Q E]. apply N.eqb_eq in E. cbn [app scan_digits2]. now rewrite Q, E.
Qed.
Lemma scan_offset_text : forall west h m, (h < 100)%N -> (m < 60)%N -> scan_offset (offset_text west h m) = Some (offset_minutes west h m, []).
Proof.
  intros west h m H M. assert (C : forall z, skip_colons (":" :: pad2 m ++ z) = pad2 m ++ z).
  { intro z. pose proof (shows_pad2 m ltac:(lia)) as (A & _ & _). destruct (pad2 m) as [|a s] eqn:F; [discriminate F|]. cbn [app skip_colons]. change (beqb ":" ":") with true. cbn [orb].
    assert (D : is_digit a = true) by (apply A; now left). replace (beqb a ":" || is_space a) with false; [reflexivity|]. destruct a; try discriminate D; reflexivity. }
  assert (U : forall c, In c ["-"; "+"] -> scan_offset (c :: pad2 h ++ ":" :: pad2 m) = match scan_sign (c :: pad2 h ++ ":" :: pad2 m) with
    | Some (negative, s1) => match scan_digits2 s1 with Some (h0, s2) => match scan_digits2 (skip_colons s2) with
        | Some (m0, s3) => if (m0 <? 60)%N then let z := Z.of_N (h0 * 60 + m0) in Some ((if negative then - z else z)%Z, s3) else None | None => None end | None => None end | None => None end).
  { intros c [<-|[<-|[]]]; reflexivity. }
  unfold offset_text, offset_minutes. rewrite U by (destruct west; cbn; tauto). pose proof (C []) as C0. rewrite app_nil_r in C0.
  replace (scan_sign _) with (Some (west, pad2 h ++ ":" :: pad2 m)) by (destruct west; reflexivity). cbv beta iota. rewrite pad2_digits by lia. rewrite C0. rewrite <- (app_nil_r (pad2 m)), pad2_digits by lia. replace (m <? 60)%N with true by lia. reflexivity.
Qed.

Theorem time_read_offset : forall t west h m, real_time t -> (-262142 <= t_year t <= 262141)%Z -> (h < 24)%N -> (m < 60)%N ->
  exists t', time_read (local_text t ++ offset_text west h m) = Some t' /\ real_time t' /\ minute_of t' = (minute_of t - offset_minutes west h m)%Z
    /\ shown_sec t' = shown_sec t /\ (t_nano t' mod 1000000000 = t_nano t mod 1000000000)%N.
Proof.
  intros t west h m R Y H M. assert (RR := R). destruct R as [V DM]. unfold valid_timestamp in V. rewrite !andb_true_iff in V. destruct V as [[[[[[[[Y1 Y2] [M1 M2]] [D1 D2]] HH] MM] SS] NN] LL].
  assert (SH : (shown_sec t <= 60)%N) by (apply N.ltb_lt in SS; unfold shown_sec; destruct (1000000000 <=? t_nano t)%N; lia).
  pose proof (scan_offset_text west h m ltac:(lia) M) as SO. set (o := offset_minutes west h m) in *. assert (OB : (Z.abs o < 1440)%Z) by (unfold o, offset_minutes; destruct west; lia).
  unfold offset_text in *. rewrite (time_read_local t _ _ o RR) by (try (destruct west; reflexivity); replace (trim_left _) with ((if west then "-" else "+") :: pad2 h ++ ":" :: pad2 m) by (destruct west; reflexivity); exact SO).
  assert (E : exists t', to_utc (t_year t) (t_month t) (t_day t) (t_hour t) (t_min t) (shown_sec t) (t_nano t mod 1000000000) o = Some t').
  { unfold to_utc. rewrite days_in_spec by lia. rewrite Y1, Y2, HH, MM. replace (1 <=? t_month t)%N with true by lia. replace (t_month t <=? 12)%N with true by lia. replace (1 <=? t_day t)%N with true by lia.
    apply N.leb_le in DM. rewrite DM. apply N.leb_le in SH. rewrite SH. replace (Z.abs o <? 1440)%Z with true by lia. cbn [andb].
    destruct (if (shown_sec t =? 60)%N then _ else _) as [s' n']. set (mm := (Z.of_N (t_hour t * 60 + t_min t) - o)%Z).
    destruct (if (mm <? 0)%Z then _ else _) as [[y' mo'] d'] eqn:DD. assert (YY : ((-262143 <=? y') && (y' <=? 262142) = true)%Z).
    { destruct (mm <? 0)%Z; [|destruct (1440 <=? mm)%Z].
      - unfold previous_day in DD. destruct (1 <? t_day t)%N; [|destruct (1 <? t_month t)%N]; injection DD as <- _ _; lia.
      - unfold next_day in DD. destruct (t_day t <? days_in (t_year t) (t_month t))%N; [|destruct (t_month t <? 12)%N]; injection DD as <- _ _; lia.
      - injection DD as <- _ _; lia. }
    rewrite YY. eauto. }
  destruct E as [t' E]. exists t'. split; [exact E|]. assert (NB : (t_nano t mod 1000000000 < 1000000000)%N) by (apply N.mod_lt; lia).
  destruct (to_utc_instant _ _ _ _ _ _ _ _ _ NB E) as (A & B & C & D). auto.
Qed.

(** Whatever is read exists. *)
Lemma span_digits_are : forall s ds r, span_digits s = (ds, r) -> all_digits ds.
Proof.
  induction s as [|c s IH]; intros ds r H; cbn [span_digits] in H; [injection H as <- _; intros x []|]. destruct (is_digit c) eqn:D; [|injection H as <- _; intros x []].
  destruct (span_digits s) as [d r0]. injection H as <- _. intros x [<-|X]; auto. eapply IH; eauto.
Qed.
Lemma scan_fraction_small : forall s n z, scan_fraction s = Some (n, z) -> (n < 1000000000)%N.
Proof.
  intros [|b s] n z H; cbn [scan_fraction] in H; [injection H as <- _; lia|]. destruct (beqb b "."); [|injection H as <- _; lia]. destruct (span_digits s) as [ds r] eqn:SD. assert (AD : all_digits ds) by (apply (span_digits_are s ds r SD)).
  destruct ds as [|c ds]; [discriminate H|]. set (l := firstn 9 (c :: ds)) in *. injection H as <- _. assert (LL : length l <= 9) by (apply firstn_le_length).
  assert (AL : all_digits l) by (intros x X; apply AD; unfold l in X; rewrite <- (firstn_skipn 9 (c :: ds)); apply in_or_app; now left).
  assert (B : (digits_N l < 10 ^ N.of_nat (length l))%N) by (rewrite digits_N_fold by auto; apply fold_push_bound, AL).
  replace 1000000000%N with (10 ^ N.of_nat (length l) * 10 ^ N.of_nat (9 - length l))%N by (rewrite <- N.pow_add_r; replace (N.of_nat (length l) + N.of_nat (9 - length l))%N with 9%N by lia; reflexivity).
  apply N.mul_lt_mono_pos_r; [|exact B]. apply N.neq_0_lt_0. apply N.pow_nonzero. lia.
Qed.
Theorem time_read_real : forall s t, time_read s = Some t -> real_time t.
Proof.
  intros s t H. unfold time_read in H.
  repeat match type of H with obind ?o ?f = Some _ => let E := fresh "E" in destruct o eqn:E; cbn [obind] in H; [|discriminate H] end.
  match type of H with match ?x with _ => _ end = _ => destruct x; [|discriminate H] end.
  eapply to_utc_instant; [|exact H]. match goal with E : scan_fraction _ = Some ?p |- _ => destruct p; eapply scan_fraction_small, E end.
Qed.
