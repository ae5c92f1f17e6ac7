(** [lossy] is the substitution of maximal subparts. *)
From Coq Require Import Lia.
From Verif.Model Require Import Os.
From Verif.Spec Require Import SpecPath.
From Verif.Proofs Require Import BytesFacts Utf8Facts.
Local Open Scope nat_scope.

Inductive shape : bytes -> Prop :=
| h1 b1 : in_range x00 x7f b1 = true -> shape [b1]
| h2 b1 b2 : in_range x00 x7f b1 = false -> ok2 b1 b2 = true -> shape [b1; b2]
| h3 b1 b2 b3 : in_range x00 x7f b1 = false -> ok2 b1 b2 = false -> ok3 b1 b2 = true -> cont b3 = true -> shape [b1; b2; b3]
| h4 b1 b2 b3 b4 : in_range x00 x7f b1 = false -> ok2 b1 b2 = false -> ok3 b1 b2 = false -> ok4 b1 b2 = true -> cont b3 = true -> cont b4 = true -> shape [b1; b2; b3; b4].

Lemma encode_shape : forall c, scalar c -> shape (utf8_encode c).
Proof.
  intros c H. unfold scalar in H. unfold utf8_encode.
  destruct (N.ltb_spec c 0x80).
  { apply h1. rewrite in_range_iff, bN_to_N by lia; simpl; lia. }
  assert (M1 : (c mod 64 < 64)%N) by (apply N.mod_lt; lia).
  assert (D1 : (c = 64 * (c / 64) + c mod 64)%N) by (apply N.div_mod; lia).
  assert (M2 : (c / 64 mod 64 < 64)%N) by (apply N.mod_lt; lia).
  assert (D2 : (c / 64 = 64 * (c / 4096) + c / 64 mod 64)%N).
  { replace 4096%N with (64 * 64)%N by lia. rewrite <- N.div_div by lia. apply N.div_mod. lia. }
  assert (M3 : (c / 4096 mod 64 < 64)%N) by (apply N.mod_lt; lia).
  assert (D3 : (c / 4096 = 64 * (c / 262144) + c / 4096 mod 64)%N).
  { replace 262144%N with (4096 * 64)%N by lia. rewrite <- N.div_div by lia. apply N.div_mod. lia. }
  set (r1 := (c mod 64)%N) in *. set (r2 := (c / 64 mod 64)%N) in *. set (r3 := (c / 4096 mod 64)%N) in *.
  set (q1 := (c / 64)%N) in *. set (q2 := (c / 4096)%N) in *. set (q3 := (c / 262144)%N) in *.
  clearbody r1 r2 r3 q1 q2 q3.
  destruct (N.ltb_spec c 0x800).
  { assert (q1 < 32)%N by lia. assert (2 <= q1)%N by lia. apply h2; [apply not_true|]; to_nums; rewrite !bN_to_N by lia; lia. }
  destruct (N.ltb_spec c 0x10000).
  { assert (q2 < 16)%N by lia. apply h3; [apply not_true|apply not_true| |]; to_nums; rewrite !bN_to_N by lia; lia. }
  assert (q3 < 5)%N by lia. apply h4; [apply not_true|apply not_true|apply not_true| | |]; to_nums; rewrite !bN_to_N by lia; lia.
Qed.
Lemma char_shape : forall c, char_bytes c <-> shape c.
Proof.
  intro c. split.
  - intros (n & N & ->). now apply encode_shape.
  - intros [b1 A|b1 b2 _ A|b1 b2 b3 _ _ A B|b1 b2 b3 b4 _ _ _ A B C].
    + exists (Byte.to_N b1). apply in_range_iff in A. change (Byte.to_N x7f) with 127%N in A. split; [unfold scalar; lia|]. unfold utf8_encode. destruct (N.ltb_spec (Byte.to_N b1) 0x80); [|lia]. now rewrite bN_of_to.
    + destruct (encode2 b1 b2 A) as (n & N & E). exists n. auto.
    + destruct (encode3 b1 b2 b3) as (n & N & E); [now rewrite A, B|]. exists n. auto.
    + destruct (encode4 b1 b2 b3 b4) as (n & N & E); [now rewrite A, B, C|]. exists n. auto.
Qed.
Lemma third : forall b1 b2, ok3 b1 b2 = true -> in_range x00 x7f b1 = false /\ ok2 b1 b2 = false.
Proof. intros b1 b2 H. split; apply not_true; to_nums; lia. Qed.
Lemma fourth : forall b1 b2, ok4 b1 b2 = true -> in_range x00 x7f b1 = false /\ ok2 b1 b2 = false /\ ok3 b1 b2 = false.
Proof. intros b1 b2 H. split; [|split]; apply not_true; to_nums; lia. Qed.
Lemma cont80 : cont x80 = true.
Proof. reflexivity. Qed.

Ltac no_char := let c := fresh "c" in let r := fresh "r" in let C := fresh "C" in let E := fresh "E" in
  intros c r C E; apply char_shape in C; inversion C; subst c; cbn [app] in E; inversion E; subst; congruence.
(** A beginning that is longer than the piece: what is the character? *)
Ltac longest := let q := fresh "q" in let r := fresh "r" in let E := fresh "E" in let z := fresh "z" in let Z := fresh "Z" in let C := fresh "C" in
  intros q r (_ & z & Z & C) E; apply char_shape in C; cbn [length];
  destruct q as [|? [|? [|? [|? q]]]]; cbn [length]; try lia; exfalso; cbn [app] in E, C; (destruct z as [|? z]; [now apply Z|]); cbn [app] in C;
  inversion E; subst; inversion C; subst; try congruence; try (destruct q; discriminate).

Lemma lossy_shown : forall s, shown_as s (lossy s).
Proof.
  assert (X : forall n s, length s <= n -> shown_as s (lossy s)).
  { induction n as [|n IH]; intros s L. { destruct s; [constructor|cbn in L; lia]. }
    destruct s as [|b1 s1]; [constructor|]. cbn [length] in L. cbn [lossy]. change replacement with (utf8_encode 65533).
    destruct (in_range x00 x7f b1) eqn:A. { apply (sh_char [b1] s1); [apply char_shape; now constructor|apply IH; lia]. }
    destruct s1 as [|b2 s2].
    { rewrite <- (app_nil_r (utf8_encode 65533)). apply (sh_piece [b1] []); [no_char|now right|longest|constructor]. }
    cbn [length] in L. destruct (ok2 b1 b2) eqn:O2. { apply (sh_char [b1; b2] s2); [apply char_shape; now constructor|apply IH; lia]. }
    destruct (ok3 b1 b2) eqn:O3.
    { assert (BG : begun [b1; b2]). { split; [discriminate|]. exists [x80]. split; [discriminate|]. apply char_shape. cbn [app]. constructor; auto. }
      destruct s2 as [|b3 s3].
      { rewrite <- (app_nil_r (utf8_encode 65533)). apply (sh_piece [b1; b2] []); [no_char|now left|longest|constructor]. }
      cbn [length] in L. destruct (cont b3) eqn:K3. { apply (sh_char [b1; b2; b3] s3); [apply char_shape; now constructor|apply IH; lia]. }
      apply (sh_piece [b1; b2] (b3 :: s3)); [no_char|now left|longest|apply IH; cbn [length]; lia]. }
    destruct (ok4 b1 b2) eqn:O4.
    { assert (BG : begun [b1; b2]). { split; [discriminate|]. exists [x80; x80]. split; [discriminate|]. apply char_shape. cbn [app]. constructor; auto. }
      destruct s2 as [|b3 s3].
      { rewrite <- (app_nil_r (utf8_encode 65533)). apply (sh_piece [b1; b2] []); [no_char|now left|longest|constructor]. }
      cbn [length] in L. destruct (cont b3) eqn:K3.
      - assert (BG3 : begun [b1; b2; b3]). { split; [discriminate|]. exists [x80]. split; [discriminate|]. apply char_shape. cbn [app]. constructor; auto. }
        destruct s3 as [|b4 s4].
        { rewrite <- (app_nil_r (utf8_encode 65533)). apply (sh_piece [b1; b2; b3] []); [no_char|now left|longest|constructor]. }
        cbn [length] in L. destruct (cont b4) eqn:K4. { apply (sh_char [b1; b2; b3; b4] s4); [apply char_shape; now constructor|apply IH; lia]. }
        apply (sh_piece [b1; b2; b3] (b4 :: s4)); [no_char|now left|longest|apply IH; cbn [length]; lia].
      - apply (sh_piece [b1; b2] (b3 :: s3)); [no_char|now left|longest|apply IH; cbn [length]; lia]. }
    apply (sh_piece [b1] (b2 :: s2)); [no_char|now right|longest|apply IH; cbn [length]; lia]. }
  intro s. eapply X; eauto.
Qed.

(** ** There is one such text. *)
Lemma one_char : forall c c' r r', char_bytes c -> char_bytes c' -> c ++ r = c' ++ r' -> c = c' /\ r = r'.
Proof.
  intros c c' r r' C C' E. apply char_shape in C, C'. inversion C; subst c; inversion C'; subst c'; cbn [app] in E; inversion E; subst; auto; congruence.
Qed.
Lemma same_length_app : forall (a b c d : bytes), length a = length c -> a ++ b = c ++ d -> a = c /\ b = d.
Proof. induction a as [|x a IH]; intros b [|y c] d L E; try discriminate; auto. cbn [app] in E. injection E as -> E. injection L as L. destruct (IH b c d L E) as [-> ->]. auto. Qed.
Lemma char_some : forall c, char_bytes c -> c <> [].
Proof. intros c C E. apply char_shape in C. inversion C; subst; discriminate. Qed.
Lemma begun_some : forall p, begun p \/ length p = 1 -> 1 <= length p.
Proof. intros [|x p] [[H _]|H]; cbn [length] in *; try lia. now destruct H. Qed.
Lemma shown_one : forall s t, shown_as s t -> forall t', shown_as s t' -> t' = t.
Proof.
  intros s t H. induction H as [|c s t C H IH|p s t NC P M H IH]; intros t' H'.
  - inversion H' as [|c s' t0 C S E E2|p s' t0 NC P M S E E2]; auto.
    + exfalso. destruct c; [now apply (char_some [] C)|discriminate].
    + exfalso. apply begun_some in P. destruct p; [cbn in P; lia|discriminate].
  - remember (c ++ s) as x eqn:X. destruct H' as [|c' s' t' C' S|p' s' t' NC P M S].
    + exfalso. destruct c; [now apply (char_some [] C)|discriminate].
    + destruct (one_char _ _ _ _ C' C X) as [-> ->]. f_equal. now apply IH.
    + exfalso. eapply NC; eauto.
  - remember (p ++ s) as x eqn:X. destruct H' as [|c' s' t' C' S|p' s' t' NC' P' M' S].
    + exfalso. apply begun_some in P. destruct p; [cbn in P; lia|discriminate].
    + exfalso. apply (NC c' s' C'). congruence.
    + assert (length p' = length p).
      { pose proof (begun_some _ P). pose proof (begun_some _ P'). assert (A : length p' <= length p) by (destruct P' as [B|B]; [apply (M p' s' B); congruence|lia]).
        assert (length p <= length p') by (destruct P as [B|B]; [apply (M' p s B); congruence|lia]). lia. }
      destruct (same_length_app p' s' p s) as [-> ->]; auto. f_equal. now apply IH.
Qed.
Lemma shown_text : forall s, utf8_text s -> shown_as s s.
Proof.
  intros s (cs & F & ->). induction F as [|c cs C F IH]; cbn [flat_map]; [constructor|]. apply sh_char; auto. now exists c.
Qed.
