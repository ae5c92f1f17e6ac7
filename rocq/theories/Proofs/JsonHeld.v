(** What the JSON reader delivers: UTF-8 strings, integers of 64 bits and finite floats.  What the JSON printer takes. *)
From Coq Require Import Lia.
From Verif.Model Require Import Os Json.
From Verif.Spec Require Import SpecPath SpecJsonText SpecAbort.
From Verif.Proofs Require Import BytesFacts Utf8Facts ValueFacts FormatFacts LossyFacts JsonFloat JsonScale JsonNumber JsonGrammar CliAbort.
Open Scope byte_scope.
Local Open Scope nat_scope.

Definition ascii (b : byte) : bool := in_range x00 x7f b.
(** ** UTF-8 *)
Lemma valid_tail : forall b s, ascii b = true -> utf8_valid (b :: s) = utf8_valid s.
Proof. intros b s A. cbn [utf8_valid]. unfold ascii in A. now rewrite A. Qed.
Lemma valid_shape : forall c s, shape c -> utf8_valid (c ++ s) = utf8_valid s.
Proof. intros c s C. apply char_shape in C. destruct C as (n & N & ->). now apply valid_encode. Qed.
Lemma valid_cases : forall s, utf8_valid s = true -> s = [] \/ exists c s', shape c /\ s = c ++ s' /\ utf8_valid s' = true.
Proof.
  intros s V. apply utf8_valid_iff in V. destruct V as (cs & F & ->). destruct F as [|c cs C F]; [now left|]. right. exists (utf8_encode c), (flat_map utf8_encode cs). split; [now apply encode_shape|]. split; auto. now apply flat_valid.
Qed.
Lemma shape_some : forall c, shape c -> exists b t, c = b :: t.
Proof. intros c []; eauto. Qed.
(** The bytes of a longer character are not ASCII. *)
Lemma cont_high : forall b, cont b = true -> ascii b = false.
Proof. intros b H. unfold ascii. apply not_true. to_nums. lia. Qed.
Lemma ok2_high : forall b1 b2, ok2 b1 b2 = true -> ascii b2 = false.
Proof. intros b1 b2 H. unfold ascii. apply not_true. to_nums. lia. Qed.
Lemma ok3_high : forall b1 b2, ok3 b1 b2 = true -> ascii b2 = false.
Proof. intros b1 b2 H. unfold ascii. apply not_true. to_nums. lia. Qed.
Lemma ok4_high : forall b1 b2, ok4 b1 b2 = true -> ascii b2 = false.
Proof. intros b1 b2 H. unfold ascii. apply not_true. to_nums. lia. Qed.
Lemma shape_high : forall c, shape c -> (exists b, c = [b] /\ ascii b = true) \/ Forall (fun b => ascii b = false) c.
Proof. intros c [b1 A|b1 b2 A B|b1 b2 b3 A B C D|b1 b2 b3 b4 A B C D E F]; [left; eauto|right..]; repeat constructor; eauto using cont_high, ok2_high, ok3_high, ok4_high. Qed.
Lemma valid_app : forall a b, Forall (fun x => ascii x = true) a -> utf8_valid (a ++ b) = utf8_valid b.
Proof. intros a b F. induction F as [|x a A F IH]; auto. cbn [app]. now rewrite valid_tail. Qed.
(** Text can be cut at an ASCII character. *)
Lemma cut_high : forall c a b r s, Forall (fun x => ascii x = false) c -> ascii b = true -> c ++ s = a ++ b :: r -> exists a', a = c ++ a' /\ s = a' ++ b :: r.
Proof.
  induction c as [|x c IH]; intros a b r s F A E; [exists a; auto|]. inversion F as [|? ? X F']; subst. destruct a as [|y a]; cbn [app] in E; injection E as -> E; [congruence|].
  destruct (IH a b r s F' A E) as (a' & -> & ->). exists a'. auto.
Qed.
Lemma valid_cut : forall n a b r, length a <= n -> ascii b = true -> utf8_valid (a ++ b :: r) = true -> utf8_valid a = true /\ utf8_valid r = true.
Proof.
  induction n as [|n IH]; intros a b r L A V.
  { destruct a; [|cbn in L; lia]. cbn [app] in V. rewrite valid_tail in V by auto. auto. }
  destruct a as [|x a]; [cbn [app] in V; rewrite valid_tail in V by auto; auto|]. destruct (ascii x) eqn:X.
  { cbn [app] in V. rewrite valid_tail in V |- * by auto. apply (IH a b r); auto. cbn [length] in L. lia. }
  destruct (valid_cases _ V) as [E|(c & s' & C & E & V')]; [discriminate E|]. destruct (shape_high c C) as [(y & -> & Y)|H].
  { cbn [app] in E. injection E as -> _. congruence. }
  symmetry in E. destruct (cut_high c (x :: a) b r s' H A E) as (a' & Ea & Es). rewrite Ea, valid_shape by auto. rewrite Es in V'. apply (IH a' b r); auto.
  destruct (shape_some c C) as (z & t & ->). assert (length (x :: a) = length ((z :: t) ++ a')) as Q by now rewrite Ea. rewrite app_length in Q. cbn [length] in *. lia.
Qed.
(** ** Strings *)
Lemma hex_ascii : forall b x, In (b, x) hex_digits -> ascii b = true.
Proof. intros b x H. cbn in H. repeat (destruct H as [H|H]; [injection H as <- <-; reflexivity|]). destruct H. Qed.
Lemma unit_ascii : forall h n, code_unit h n -> Forall (fun b => ascii b = true) h.
Proof. intros h n []. repeat constructor; eauto using hex_ascii. Qed.
Lemma short_ascii : forall c x, In (c, x) short_escapes -> ascii c = true /\ ascii x = true.
Proof. intros c x H. cbn in H. repeat (destruct H as [H|H]; [injection H as <- <-; split; reflexivity|]). destruct H. Qed.
Lemma chars_high : forall c t x, Forall (fun b => ascii b = false) c -> chars (c ++ t) x -> exists x', x = c ++ x' /\ chars t x'.
Proof.
  induction c as [|b c IH]; intros t x F C; [exists x; auto|]. inversion F as [|? ? B F']; subst. cbn [app] in C. inversion C; subst; try (now discriminate B).
  destruct (IH t s F') as (x' & -> & C'); auto. exists x'. auto.
Qed.
Lemma chars_valid : forall n t x, length t <= n -> chars t x -> utf8_valid t = true -> utf8_valid x = true.
Proof.
  induction n as [|n IH]; intros t x L C V.
  { destruct t; [|cbn in L; lia]. inversion C. reflexivity. }
  destruct t as [|b t]; [inversion C; reflexivity|]. destruct (ascii b) eqn:A.
  - cbn [length] in L. rewrite valid_tail in V by auto. inversion C as [|b' t' s' _ _ _ C'|c x' t' s' I C'|h k t' s' U SC C'|h1 h2 i j t' s' U1 I1 U2 I2 C']; subst.
    + rewrite valid_tail by auto. apply (IH t); auto. lia.
    + apply short_ascii in I. destruct I as [I1 I2]. rewrite valid_tail in V |- * by auto. cbn [length] in L. apply (IH t'); auto. lia.
    + rewrite valid_tail in V by reflexivity. rewrite (valid_app h) in V by eauto using unit_ascii. rewrite valid_encode by auto. cbn [length] in L. rewrite app_length in L. apply (IH t'); auto. lia.
    + rewrite valid_tail in V by reflexivity. rewrite (valid_app h1) in V by eauto using unit_ascii. rewrite valid_tail, valid_tail in V by reflexivity. rewrite (valid_app h2) in V by eauto using unit_ascii.
      rewrite valid_encode by (unfold scalar; lia). cbn [length] in L. rewrite !app_length in L. cbn [length] in L. rewrite app_length in L. apply (IH t'); auto. lia.
  - destruct (valid_cases _ V) as [E|(c & s' & S & E & V')]; [discriminate E|]. destruct (shape_high c S) as [(y & -> & Y)|H].
    { cbn [app] in E. injection E as -> _. congruence. }
    rewrite E in C. destruct (chars_high c s' x H C) as (x' & -> & C'). rewrite valid_shape by auto. apply (IH s'); auto.
    destruct (shape_some c S) as (z & q & ->). assert (length (b :: t) = length ((z :: q) ++ s')) as Q by now rewrite E. rewrite app_length in Q. cbn [length] in *. lia.
Qed.
Lemma string_held : forall n s x r, utf8_valid s = true -> read_string n s = Ok (x, r) -> utf8_valid x = true /\ utf8_valid r = true.
Proof.
  intros n s x r V H. destruct (string_meant _ _ _ _ H) as (t & -> & C). destruct (valid_cut (length t) t x22 r) as [A B]; auto. split; auto. eapply chars_valid; eauto.
Qed.
(** ** Numbers *)
Lemma digits_ascii : forall ds, all_digits ds -> Forall (fun b => ascii b = true) ds.
Proof. intros ds A. apply Forall_forall. intros b I. specialize (A b I). unfold is_digit in A. unfold ascii. apply in_range_iff in A. apply in_range_iff. change (Byte.to_N "0") with 48%N in A. change (Byte.to_N "9") with 57%N in A. change (Byte.to_N x00) with 0%N. change (Byte.to_N x7f) with 127%N. lia. Qed.
Lemma span_valid : forall s ds r, span_digits s = (ds, r) -> utf8_valid s = true -> utf8_valid r = true.
Proof. intros s ds r H V. destruct (span_is _ _ _ H) as (-> & A & _). now rewrite valid_app in V by now apply digits_ascii. Qed.
Definition good_float (y : f64) : Prop := f64_canonical y = true /\ f64_finite y = true.
Lemma parts_good : forall pos n e y, (n <= u64_limit)%N -> float_from_parts pos n e = Ok y -> good_float y.
Proof.
  intros pos n e y N H. unfold float_from_parts in H. apply bind_ok in H. destruct H as (x & S & H). destruct (scale_read n e x N S) as (m & k & -> & C & _). assert (y = if pos then FFin false m k else neg_f64 (FFin false m k)) as -> by congruence.
  destruct pos; split; auto.
Qed.
Lemma exponent_good : forall pos n e s y r, (n <= u64_limit)%N -> utf8_valid s = true -> read_exponent pos n e s = Ok (y, r) -> good_float y /\ utf8_valid r = true.
Proof.
  intros pos n e s y r N V H. rewrite exponent_after_sign in H. assert (V1 : utf8_valid (snd (after_sign s)) = true).
  { unfold after_sign. destruct s as [|b s]; auto. destruct (beqb b "+") eqn:P; [apply beqb_eq in P; subst b; now rewrite valid_tail in V by reflexivity|]. destruct (beqb b "-") eqn:M; [apply beqb_eq in M; subst b; now rewrite valid_tail in V by reflexivity|]. exact V. }
  destruct (after_sign s) as [plus s1]. cbn [snd] in V1. unfold exponent_digits in H. destruct (span_digits s1) as [ds rest] eqn:SP. pose proof (span_valid _ _ _ SP V1) as VR. destruct ds as [|d ds]; [discriminate H|]. cbv zeta in H.
  destruct (i32_max <? digits_N (d :: ds))%N.
  - destruct (negb (n =? 0)%N && plus); [discriminate H|]. assert (y = FFin (negb pos) 0 (-1074) /\ r = rest) as [-> ->] by (split; congruence). split; auto. split; reflexivity.
  - apply bind_ok in H. destruct H as (z & P & H). assert (y = z /\ r = rest) as [-> ->] by (split; congruence). split; auto. eapply parts_good; eauto.
Qed.
Lemma finish_float_good : forall pos n e s y r, (n <= u64_limit)%N -> utf8_valid s = true -> finish_float pos n e s = Ok (y, r) -> good_float y /\ utf8_valid r = true.
Proof.
  intros pos n e s y r N V H. unfold finish_float in H. destruct (at_exponent s) as [s'|] eqn:X.
  - apply at_exponent_is in X. destruct X as (c & -> & I). assert (A : ascii c = true) by (cbn in I; destruct I as [<-|[<-|[]]]; reflexivity). rewrite valid_tail in V by auto. eapply exponent_good; eauto.
  - apply bind_ok in H. destruct H as (z & P & H). assert (y = z /\ r = s) as [-> ->] by (split; congruence). split; auto. eapply parts_good; eauto.
Qed.
Lemma decimals_good : forall pos n e s y r, (n <= u64_limit)%N -> utf8_valid s = true -> read_decimals pos n e s = Ok (y, r) -> good_float y /\ utf8_valid r = true.
Proof.
  intros pos n e s y r N V H. unfold read_decimals in H. destruct (span_digits s) as [ds rest] eqn:SP. pose proof (span_valid _ _ _ SP V) as VR. destruct (span_is _ _ _ SP) as (_ & A & _). destruct ds as [|d ds]; [discriminate H|].
  destruct (take_decimals n e (d :: ds)) as [n' e'] eqn:T. destruct (take_decimals_is _ _ _ _ _ N A T) as (N' & _). eapply finish_float_good; eauto.
Qed.
Definition good_number (n : num) : Prop := match n with NInt z => (- 2 ^ 63 <= z < 2 ^ 64)%Z | NFlt y => good_float y end.
Lemma whole_good : forall (pos : bool) n (s : bytes) x r, (n <= u64_limit)%N ->
  (if pos then Ok (NInt (Z.of_N n), s) else if (1 <=? n)%N && (n <=? 9223372036854775808)%N then Ok (NInt (- Z.of_N n), s) else Ok (NFlt (neg_f64 (u64_to_f64 n)), s)) = Ok (x, r) ->
  good_number x /\ r = s.
Proof.
  intros pos n s x r N H. destruct pos.
  - assert (x = NInt (Z.of_N n) /\ r = s) as [-> ->] by (split; congruence). split; auto. unfold good_number. unfold u64_limit in N. lia.
  - destruct ((1 <=? n)%N && (n <=? 9223372036854775808)%N) eqn:B.
    + assert (x = NInt (- Z.of_N n) /\ r = s) as [-> ->] by (split; congruence). split; auto. unfold good_number. apply andb_true_iff in B. rewrite !N.leb_le in B. lia.
    + assert (x = NFlt (neg_f64 (u64_to_f64 n)) /\ r = s) as [-> ->] by (split; congruence). split; auto. unfold good_number.
      destruct (N.eq_dec n 0) as [->|N0]; [rewrite zero_float; split; reflexivity|]. destruct (u64_float n) as (m & e & F & C & _); [lia|]. rewrite F. split; [exact C|reflexivity].
Qed.
Lemma number_good : forall pos s x r, utf8_valid s = true -> read_number pos s = Ok (x, r) -> good_number x /\ utf8_valid r = true.
Proof.
  intros pos s x r V H. unfold read_number in H. destruct (span_digits s) as [ds rest] eqn:SP. pose proof (span_valid _ _ _ SP V) as VR. destruct (span_is _ _ _ SP) as (_ & A & _). destruct ds as [|d ds]; [discriminate H|].
  destruct (beqb d "0" && negb (bytes_eqb ds [])); [discriminate H|]. destruct (take_integer 0 (d :: ds)) as [n more] eqn:T. destruct (take_integer_is (d :: ds) 0 n more ltac:(vm_compute; discriminate) A T) as (N & _). unfold finish_number in H.
  destruct rest as [|b rest].
  - destruct (bytes_eqb more []); [destruct (whole_good _ _ _ _ _ N H) as [G ->]; auto|]. apply bind_ok in H. destruct H as (y & P & H). assert (x = NFlt y /\ r = []) as [-> ->] by (split; congruence). split; auto. exact (parts_good _ _ _ _ N P).
  - destruct (beqb b ".") eqn:B1; [apply beqb_eq in B1; subst b; rewrite valid_tail in VR by reflexivity; apply bind_ok in H; destruct H as ([y r'] & P & H); cbn [fst snd] in H; assert (x = NFlt y /\ r = r') as [-> ->] by (split; congruence); exact (decimals_good _ _ _ _ _ _ N VR P)|].
    destruct (beqb b "e" || beqb b "E") eqn:B2.
    { assert (AB : ascii b = true) by (apply orb_true_iff in B2; rewrite !beqb_eq in B2; destruct B2 as [-> | ->]; reflexivity). rewrite valid_tail in VR by auto. apply bind_ok in H; destruct H as ([y r'] & P & H); cbn [fst snd] in H; assert (x = NFlt y /\ r = r') as [-> ->] by (split; congruence). exact (exponent_good _ _ _ _ _ _ N VR P). }
    destruct (bytes_eqb more []); [destruct (whole_good _ _ _ _ _ N H) as [G ->]; auto|]. apply bind_ok in H. destruct H as (y & P & H). assert (x = NFlt y /\ r = b :: rest) as [-> ->] by (split; congruence). split; auto. exact (parts_good _ _ _ _ N P).
Qed.
Lemma number_held : forall n, good_number n -> held Json (FNum n).
Proof. intros [z|y] G; cbn [held]; [exact G|]. destruct G as [C F]. auto. Qed.

(** ** Values *)
Lemma skip_valid : forall s, utf8_valid s = true -> utf8_valid (skip_space s) = true.
Proof.
  intros s V. destruct (skip_is s) as (w & W & E & _). rewrite E in V. rewrite valid_app in V; auto. eapply Forall_impl; [|exact W]. intros b I. cbn in I. repeat (destruct I as [<-|I]; [reflexivity|]). destruct I.
Qed.
Lemma skip_head : forall s b s', skip_space s = b :: s' -> ascii b = true -> utf8_valid s = true -> utf8_valid s' = true.
Proof. intros s b s' E A V. apply skip_valid in V. rewrite E in V. now rewrite valid_tail in V. Qed.
Section Values.
  Context (value : bytes -> outcome (fvalue * bytes)) (V : forall s v r, utf8_valid s = true -> value s = Ok (v, r) -> held Json v /\ utf8_valid r = true).
  Lemma elements_held : forall n s l r, utf8_valid s = true -> read_elements value n s = Ok (l, r) -> Forall (held Json) l /\ utf8_valid r = true.
  Proof.
    induction n as [|n IH]; intros s l r U H; [discriminate H|]. cbn [read_elements] in H. apply bind_ok in H. destruct H as ([v r1] & R & H). cbn [fst snd] in H. destruct (V _ _ _ U R) as [HV U1]. destruct (skip_space r1) as [|b s'] eqn:K; [discriminate H|].
    destruct (beqb b ",") eqn:B.
    - apply beqb_eq in B. subst b. pose proof (skip_head _ _ _ K eq_refl U1) as U2. apply bind_ok in H. destruct H as ([l' r2] & R2 & H). cbn [fst snd] in H. destruct (IH _ _ _ (skip_valid _ U2) R2) as [HL U3]. assert (l = v :: l' /\ r = r2) as [-> ->] by (split; congruence). auto.
    - destruct (beqb b "]") eqn:B2; [|discriminate H]. apply beqb_eq in B2. subst b. pose proof (skip_head _ _ _ K eq_refl U1) as U2. assert (l = [v] /\ r = s') as [-> ->] by (split; congruence). auto.
  Qed.
  Definition good_entry (kv : fvalue * fvalue) : Prop := (exists s, fst kv = FStr s) /\ held Json (snd kv).
  Lemma entry_held : forall s kv r, utf8_valid s = true -> read_entry value s = Ok (kv, r) -> good_entry kv /\ utf8_valid r = true.
  Proof.
    intros s kv r U H. unfold read_entry in H. destruct s as [|b s1]; [discriminate H|]. destruct (beqb b x22) eqn:B; [|discriminate H]. apply beqb_eq in B. subst b. rewrite valid_tail in U by reflexivity. apply bind_ok in H. destruct H as ([k r1] & R & H). cbn [fst snd] in H.
    destruct (string_held _ _ _ _ U R) as [_ U1]. destruct (skip_space r1) as [|c s2] eqn:K; [discriminate H|]. destruct (beqb c ":") eqn:B; [|discriminate H]. apply beqb_eq in B. subst c. pose proof (skip_head _ _ _ K eq_refl U1) as U2.
    apply bind_ok in H. destruct H as ([v r2] & R2 & H). cbn [fst snd] in H. destruct (V _ _ _ (skip_valid _ U2) R2) as [HV U3]. assert (kv = (FStr k, v) /\ r = r2) as [-> ->] by (split; congruence). split; auto. split; cbn [fst snd]; eauto.
  Qed.
  Lemma entries_held : forall n s m r, utf8_valid s = true -> read_entries value n s = Ok (m, r) -> Forall good_entry m /\ utf8_valid r = true.
  Proof.
    induction n as [|n IH]; intros s l r U H; [discriminate H|]. cbn [read_entries] in H. apply bind_ok in H. destruct H as ([v r1] & R & H). cbn [fst snd] in H. destruct (entry_held _ _ _ U R) as [HV U1]. destruct (skip_space r1) as [|b s'] eqn:K; [discriminate H|].
    destruct (beqb b ",") eqn:B.
    - apply beqb_eq in B. subst b. pose proof (skip_head _ _ _ K eq_refl U1) as U2. apply bind_ok in H. destruct H as ([l' r2] & R2 & H). cbn [fst snd] in H. destruct (IH _ _ _ (skip_valid _ U2) R2) as [HL U3]. assert (l = v :: l' /\ r = r2) as [-> ->] by (split; congruence). auto.
    - destruct (beqb b "}") eqn:B2; [|discriminate H]. apply beqb_eq in B2. subst b. pose proof (skip_head _ _ _ K eq_refl U1) as U2. assert (l = [v] /\ r = s') as [-> ->] by (split; congruence). auto.
  Qed.
  Lemma array_held : forall s l r, utf8_valid s = true -> read_array value s = Ok (l, r) -> Forall (held Json) l /\ utf8_valid r = true.
  Proof.
    intros s l r U H. unfold read_array in H. destruct (skip_space s) as [|b s'] eqn:K; [discriminate H|]. destruct (beqb b "]") eqn:B.
    - apply beqb_eq in B. subst b. pose proof (skip_head _ _ _ K eq_refl U) as U2. assert (l = [] /\ r = s') as [-> ->] by (split; congruence). auto.
    - apply skip_valid in U. rewrite K in U. eapply elements_held; eauto.
  Qed.
  Lemma object_held : forall s m r, utf8_valid s = true -> read_object value s = Ok (m, r) -> Forall good_entry m /\ utf8_valid r = true.
  Proof.
    intros s l r U H. unfold read_object in H. destruct (skip_space s) as [|b s'] eqn:K; [discriminate H|]. destruct (beqb b "}") eqn:B.
    - apply beqb_eq in B. subst b. pose proof (skip_head _ _ _ K eq_refl U) as U2. assert (l = [] /\ r = s') as [-> ->] by (split; congruence). auto.
    - apply skip_valid in U. rewrite K in U. eapply entries_held; eauto.
  Qed.
End Values.
Lemma word_held : forall w v s v' r, Forall (fun b => ascii b = true) (lit w) -> held Json v -> utf8_valid s = true -> read_word w v s = Ok (v', r) -> held Json v' /\ utf8_valid r = true.
Proof. intros w v s v' r A HV U H. apply word_meant in H. destruct H as [-> ->]. rewrite valid_app in U by auto. auto. Qed.
Lemma map_held : forall m, Forall good_entry m -> held Json (FMap m).
Proof. intros m F. cbn [held]. apply each_intro. intros kv I. rewrite Forall_forall in F. destruct (F kv I) as [K H]. auto. Qed.
Lemma seq_held : forall l, Forall (held Json) l -> held Json (FSeq l).
Proof. intros l F. cbn [held]. apply each_intro. intros v I. rewrite Forall_forall in F. auto. Qed.
Lemma value_held : forall d s v r, utf8_valid s = true -> read_value d s = Ok (v, r) -> held Json v /\ utf8_valid r = true.
Proof.
  induction d as [|d IH]; intros s v r U H; destruct s as [|b s]; try discriminate H; cbn [read_value] in H.
  all: destruct (beqb b "n"); [eapply word_held; [| |exact U|exact H]; [repeat constructor|discriminate]|]; destruct (beqb b "t"); [eapply word_held; [| |exact U|exact H]; [repeat constructor|exact I]|];
    destruct (beqb b "f"); [eapply word_held; [| |exact U|exact H]; [repeat constructor|exact I]|].
  all: destruct (beqb b "-") eqn:BM; [apply beqb_eq in BM; subst b; rewrite valid_tail in U by reflexivity; apply bind_ok in H; destruct H as ([x r1] & R & H); cbn [fst snd] in H; assert (v = FNum x /\ r = r1) as [-> ->] by (split; congruence);
    destruct (number_good _ _ _ _ U R); split; auto using number_held|].
  all: destruct (is_digit b) eqn:BD; [apply bind_ok in H; destruct H as ([x r1] & R & H); cbn [fst snd] in H; assert (v = FNum x /\ r = r1) as [-> ->] by (split; congruence); destruct (number_good _ _ _ _ U R); split; auto using number_held|].
  all: destruct (beqb b x22) eqn:BQ; [apply beqb_eq in BQ; subst b; rewrite valid_tail in U by reflexivity; apply bind_ok in H; destruct H as ([x r1] & R & H); cbn [fst snd] in H; assert (v = FStr x /\ r = r1) as [-> ->] by (split; congruence);
    destruct (string_held _ _ _ _ U R); split; auto; cbn [held]; now apply utf8_valid_iff|].
  - discriminate H.
  - destruct d as [|d']; [discriminate H|]. destruct (beqb b "[") eqn:B1.
    + apply beqb_eq in B1; subst b; rewrite valid_tail in U by reflexivity. apply bind_ok in H; destruct H as ([x r1] & R & H); cbn [fst snd] in H; assert (v = FSeq x /\ r = r1) as [-> ->] by (split; congruence). destruct (array_held _ IH _ _ _ U R). split; auto using seq_held.
    + destruct (beqb b "{") eqn:B2; [|discriminate H].
      apply beqb_eq in B2; subst b; rewrite valid_tail in U by reflexivity. apply bind_ok in H; destruct H as ([x r1] & R & H); cbn [fst snd] in H; assert (v = FMap x /\ r = r1) as [-> ->] by (split; congruence). destruct (object_held _ IH _ _ _ U R). split; auto using map_held.
Qed.
Lemma read_held_at : forall d s m, utf8_valid s = true ->
  (let* r := read_value d (skip_space s) in match fst r, skip_space (snd r) with FMap m, [] => Ok m | _, _ => json_fail end) = Ok m -> held Json (FMap m).
Proof.
  intros d s m U H. apply bind_ok in H. destruct H as ([v r] & R & H). cbn [fst snd] in H. destruct (value_held _ _ _ _ (skip_valid _ U) R) as [HV _]. destruct v; try discriminate H. destruct (skip_space r); [|discriminate H]. assert (m0 = m) as <- by congruence. exact HV.
Qed.
Lemma json_held : forall s m, utf8_text s -> json_read s = Ok m -> held Json (FMap m).
Proof. intros s m U. apply utf8_valid_iff in U. unfold json_read. generalize 128. intros d H. exact (read_held_at d s m U H). Qed.

(** ** Printing *)
Lemma value_prints : forall v level, expressible Json v -> exists t, json_value level v = Ok t.
Proof.
  induction v as [m IH|l IH|s|b|x| |tg v IH|s] using fvalue_ind'; intros level X; cbn [json_value]; eauto; cbn [expressible] in X; try contradiction; try discriminate X.
  - assert (Y : exists l, mapM (fun kv => let* k := json_key (fst kv) in let* x := json_value (S level) (snd kv) in Ok (k ++ lit ": " ++ x)) m = Ok l).
    { induction IH as [|[k v] m V IH IHm]; [exists []; reflexivity|]. cbn [each] in X. destruct X as [[K X] XM]. cbn [fst snd] in *. destruct K as [[s ->]|[K _]]; [|discriminate K]. destruct (V (S level) X) as (t & T). destruct (IHm XM) as (l & L).
      cbn [mapM fst snd]. rewrite T. cbn [json_key bind]. rewrite L. cbn [bind]. eauto. }
    destruct Y as (l & ->). cbn [bind]. eauto.
  - assert (Y : exists l', mapM (json_value (S level)) l = Ok l').
    { induction IH as [|v l V IH IHl]; [exists []; reflexivity|]. cbn [each] in X. destruct X as [X XL]. destruct (V (S level) X) as (t & T). destruct (IHl XL) as (l' & L). cbn [mapM]. rewrite T. cbn [bind]. rewrite L. cbn [bind]. eauto. }
    destruct Y as (l' & ->). cbn [bind]. eauto.
  - destruct b; eauto.
Qed.
