(** Facts about the string primitives. *)
From Verif.Model Require Import Bytes.

Lemma beqb_eq : forall a b, beqb a b = true <-> a = b.
Proof. intros a b. unfold beqb. split; intro H. now apply Byte.byte_dec_bl. now apply Byte.byte_dec_lb. Qed.

Lemma beqb_refl : forall a, beqb a a = true.
Proof. intro a. now apply beqb_eq. Qed.

Lemma beqb_neq : forall a b, beqb a b = false <-> a <> b.
Proof.
  intros a b. split; intro H.
  - intro E. subst. rewrite beqb_refl in H. discriminate.
  - destruct (beqb a b) eqn:E; auto. apply beqb_eq in E. contradiction.
Qed.

Lemma beqb_sym : forall a b, beqb a b = beqb b a.
Proof.
  intros a b. destruct (beqb a b) eqn:E.
  - apply beqb_eq in E. subst. now rewrite beqb_refl.
  - symmetry. apply beqb_neq. apply beqb_neq in E. congruence.
Qed.

Lemma bytes_eqb_eq : forall a b, bytes_eqb a b = true <-> a = b.
Proof.
  induction a as [|x a IH]; intros [|y b]; simpl; split; intro H; try discriminate; auto.
  - apply andb_true_iff in H. destruct H as [H1 H2]. apply beqb_eq in H1. apply IH in H2. congruence.
  - inversion H; subst. rewrite beqb_refl. simpl. now apply IH.
Qed.

Lemma bytes_eqb_refl : forall a, bytes_eqb a a = true.
Proof. intro a. now apply bytes_eqb_eq. Qed.

Lemma bytes_eqb_neq : forall a b, bytes_eqb a b = false <-> a <> b.
Proof.
  intros a b. split; intro H.
  - intro E. subst. rewrite bytes_eqb_refl in H. discriminate.
  - destruct (bytes_eqb a b) eqn:E; auto. apply bytes_eqb_eq in E. contradiction.
Qed.

Lemma bytes_eqb_sym : forall a b, bytes_eqb a b = bytes_eqb b a.
Proof.
  intros a b. destruct (bytes_eqb a b) eqn:E.
  - apply bytes_eqb_eq in E. subst. now rewrite bytes_eqb_refl.
  - symmetry. apply bytes_eqb_neq. apply bytes_eqb_neq in E. congruence.
Qed.

Lemma bytes_eq_dec : forall a b : bytes, {a = b} + {a <> b}.
Proof. intros a b. destruct (bytes_eqb a b) eqn:E; [left; now apply bytes_eqb_eq | right; now apply bytes_eqb_neq]. Qed.

(** ** Prefixes and suffixes *)

Lemma strip_prefix_app : forall p s, strip_prefix p (p ++ s) = Some s.
Proof. induction p as [|x p IH]; intro s; simpl; auto. now rewrite beqb_refl. Qed.

Lemma strip_prefix_some : forall p s r, strip_prefix p s = Some r <-> s = p ++ r.
Proof.
  intros p s r. split.
  - revert s. induction p as [|x p IH]; intros s H; simpl in *.
    + congruence.
    + destruct s as [|y s]; try discriminate.
      destruct (beqb x y) eqn:E; try discriminate. apply beqb_eq in E. subst. f_equal. auto.
  - intros ->. apply strip_prefix_app.
Qed.

Lemma strip_suffix1_app : forall c s, strip_suffix1 c (s ++ [c]) = Some s.
Proof.
  intros c. induction s as [|x s IH]; simpl.
  - now rewrite beqb_refl.
  - destruct (s ++ [c]) eqn:E.
    + destruct s; discriminate.
    + rewrite IH. reflexivity.
Qed.

Lemma strip_suffix1_some : forall c s r, strip_suffix1 c s = Some r <-> s = r ++ [c].
Proof.
  intros c s r. split.
  - revert r. induction s as [|x s IH]; intros r H; simpl in *; try discriminate.
    destruct s as [|y s].
    + destruct (beqb x c) eqn:E; try discriminate. apply beqb_eq in E. inversion H. subst. reflexivity.
    + destruct (strip_suffix1 c (y :: s)) eqn:E; simpl in H; try discriminate.
      inversion H; subst. simpl. f_equal. now apply IH.
  - intros ->. apply strip_suffix1_app.
Qed.

Lemma starts_with_iff : forall p s, starts_with p s = true <-> exists r, s = p ++ r.
Proof.
  intros p s. unfold starts_with. split.
  - destruct (strip_prefix p s) as [r|] eqn:E; try discriminate. intros _. exists r. now apply strip_prefix_some.
  - intros [r ->]. now rewrite strip_prefix_app.
Qed.

Lemma ends_with_iff : forall p s, ends_with p s = true <-> exists r, s = r ++ p.
Proof.
  intros p s. unfold ends_with. rewrite starts_with_iff. split.
  - intros [r H]. exists (rev r). apply (f_equal (@rev byte)) in H. now rewrite rev_involutive, rev_app_distr, rev_involutive in H.
  - intros [r ->]. exists (rev r). now rewrite rev_app_distr.
Qed.

(** ** Splitting *)

Lemma split_on_nonempty : forall c s, split_on c s <> [].
Proof.
  intros c s. destruct s as [|x s]; simpl; try discriminate.
  destruct (beqb x c); try discriminate. destruct (split_on c s); discriminate.
Qed.

Lemma split_on_nosep : forall c s, ~ In c s -> split_on c s = [s].
Proof.
  intros c. induction s as [|x s IH]; intros H; simpl; auto.
  destruct (beqb x c) eqn:E.
  - apply beqb_eq in E. subst. exfalso. apply H. now left.
  - rewrite IH; auto. intro K. apply H. now right.
Qed.

Lemma split_on_app : forall c s r, ~ In c s -> split_on c (s ++ c :: r) = s :: split_on c r.
Proof.
  intros c. induction s as [|x s IH]; intros r H; simpl.
  - now rewrite beqb_refl.
  - destruct (beqb x c) eqn:E.
    + apply beqb_eq in E. subst. exfalso. apply H. now left.
    + rewrite IH; auto. intro K. apply H. now right.
Qed.

Lemma split_on_pieces : forall c s p, In p (split_on c s) -> ~ In c p.
Proof.
  intros c. induction s as [|x s IH]; intros p H; simpl in H.
  - destruct H as [<-|[]]. auto.
  - destruct (beqb x c) eqn:E.
    + destruct H as [<-|H]; auto.
    + destruct (split_on c s) as [|q qs] eqn:Q.
      * destruct H as [<-|[]]. apply beqb_neq in E. intros [K|[]]. congruence.
      * destruct H as [<-|H].
        -- intros [K|K]. apply beqb_neq in E; congruence. apply (IH q); auto. now left.
        -- apply IH. now right.
Qed.

Lemma join_split : forall c s, join_with c (split_on c s) = s.
Proof.
  intros c. induction s as [|x s IH]; simpl; auto.
  destruct (beqb x c) eqn:E.
  - apply beqb_eq in E. subst. destruct (split_on c s) eqn:Q.
    + destruct (split_on_nonempty c s Q).
    + simpl. simpl in IH. now rewrite IH.
  - destruct (split_on c s) as [|q qs] eqn:Q.
    + destruct (split_on_nonempty c s Q).
    + simpl in *. destruct qs; simpl in *; now rewrite IH.
Qed.

Lemma split_join : forall c l, l <> [] -> (forall p, In p l -> ~ In c p) -> split_on c (join_with c l) = l.
Proof.
  intros c. induction l as [|x l IH]; intros H K; try congruence.
  destruct l as [|y l].
  - simpl. apply split_on_nosep. apply K. now left.
  - change (join_with c (x :: y :: l)) with (x ++ c :: join_with c (y :: l)).
    rewrite split_on_app; [|apply K; now left]. f_equal. apply IH; try discriminate.
    intros p P. apply K. now right.
Qed.

Lemma last_piece_nosep : forall c s, ~ In c s -> last_piece c s = s.
Proof. intros c s H. unfold last_piece. now rewrite split_on_nosep. Qed.

Lemma last_piece_app : forall c a b, last_piece c (a ++ c :: b) = last_piece c b.
Proof.
  intros c. unfold last_piece.
  assert (forall a b d, last (split_on c (a ++ c :: b)) d = last (split_on c b) d).
  { induction a as [|x a IH]; intros b d; simpl.
    - rewrite beqb_refl. simpl. destruct (split_on c b) eqn:E; auto. destruct (split_on_nonempty c b E).
    - destruct (beqb x c) eqn:E.
      + simpl. destruct (split_on c (a ++ c :: b)) eqn:Q. destruct (split_on_nonempty _ _ Q). rewrite <- Q. apply IH.
      + specialize (IH b d). destruct (split_on c (a ++ c :: b)) as [|q qs] eqn:Q. destruct (split_on_nonempty _ _ Q).
        destruct qs as [|q' qs]; simpl in *.
        * exfalso. clear - Q. revert q Q. induction a as [|y a IHa]; intros q Q; simpl in Q.
          -- rewrite beqb_refl in Q. inversion Q. destruct (split_on_nonempty c b H1).
          -- destruct (beqb y c). inversion Q. destruct (split_on_nonempty _ _ H1).
             destruct (split_on c (a ++ c :: b)) as [|z zs] eqn:R. inversion Q. destruct (split_on_nonempty _ _ R).
             inversion Q; subst. eapply IHa. reflexivity.
        * exact IH. }
  intros. apply H.
Qed.

Lemma split_once_app : forall c a b, ~ In c a -> split_once c (a ++ c :: b) = Some (a, b).
Proof.
  intros c. induction a as [|x a IH]; intros b H; simpl.
  - now rewrite beqb_refl.
  - destruct (beqb x c) eqn:E.
    + apply beqb_eq in E. subst. exfalso. apply H. now left.
    + rewrite IH; auto. intro K. apply H. now right.
Qed.

Lemma split_once_some : forall c s a b, split_once c s = Some (a, b) <-> s = a ++ c :: b /\ ~ In c a.
Proof.
  intros c s a b. split.
  - revert a b. induction s as [|x s IH]; intros a b H; simpl in H; try discriminate.
    destruct (beqb x c) eqn:E.
    + inversion H; subst. apply beqb_eq in E. subst. split; auto.
    + destruct (split_once c s) as [[a' b']|] eqn:Q; try discriminate.
      inversion H; subst. destruct (IH _ _ eq_refl) as [-> K]. split; auto.
      apply beqb_neq in E. intros [L|L]; auto.
  - intros [-> H]. now apply split_once_app.
Qed.

Lemma split_once_none : forall c s, split_once c s = None <-> ~ In c s.
Proof.
  intros c. induction s as [|x s IH]; simpl.
  - split; auto.
  - destruct (beqb x c) eqn:E.
    + apply beqb_eq in E. split; try discriminate. intros H. exfalso. apply H. now left.
    + apply beqb_neq in E. destruct (split_once c s) as [[a b]|].
      * split; try discriminate. intro H. assert (~ In c s) by (intro K; apply H; now right). apply IH in H0. discriminate.
      * split; auto. intros _ [K|K]; auto. now apply IH.
Qed.

Lemma rsplit_once_some : forall c s a b, rsplit_once c s = Some (a, b) <-> s = a ++ c :: b /\ ~ In c b.
Proof.
  intros c s a b. unfold rsplit_once. split.
  - destruct (split_once c (rev s)) as [[x y]|] eqn:E; intros H; inversion H; subst.
    apply split_once_some in E. destruct E as [E K].
    apply (f_equal (@rev byte)) in E. rewrite rev_involutive, rev_app_distr in E. simpl in E. rewrite <- app_assoc in E. simpl in E.
    split; auto. intro L. apply K. now apply in_rev.
  - intros [-> H]. rewrite rev_app_distr. simpl. rewrite <- app_assoc. simpl.
    rewrite split_once_app.
    + now rewrite !rev_involutive.
    + intro K. apply H. now apply in_rev.
Qed.

Lemma rsplit_once_none : forall c s, rsplit_once c s = None <-> ~ In c s.
Proof.
  intros c s. unfold rsplit_once. destruct (split_once c (rev s)) as [[a b]|] eqn:E.
  - split; try discriminate. intro H. apply split_once_some in E. destruct E as [E _].
    exfalso. apply H. apply in_rev. rewrite E. apply in_or_app. right. now left.
  - apply split_once_none in E. split; auto. intros _ K. apply E. now apply -> in_rev.
Qed.

(** ** Trimming *)

Lemma trim_start_c_nochange : forall c x s, x <> c -> trim_start_c c (x :: s) = x :: s.
Proof. intros c x s H. simpl. destruct (beqb x c) eqn:E; auto. apply beqb_eq in E. contradiction. Qed.

Lemma trim_start_c_repeat : forall c n s, trim_start_c c (repeat c n ++ s) = trim_start_c c s.
Proof. intros c. induction n as [|n IH]; intros s; simpl; auto. rewrite beqb_refl. apply IH. Qed.

Lemma rev_repeat : forall (c : byte) n, rev (repeat c n) = repeat c n.
Proof.
  intros c. induction n as [|n IH]; simpl; auto. rewrite IH. clear IH. induction n as [|n IH]; simpl; auto. now rewrite IH.
Qed.

Lemma trim_end_c_repeat : forall c n s, trim_end_c c (s ++ repeat c n) = trim_end_c c s.
Proof.
  intros. unfold trim_end_c. rewrite rev_app_distr, rev_repeat, trim_start_c_repeat. reflexivity.
Qed.

Lemma trim_start_c_notin : forall c s, ~ In c s -> trim_start_c c s = s.
Proof.
  intros c [|x s] H; auto. apply trim_start_c_nochange. intro E. apply H. subst. now left.
Qed.

Lemma trim_end_c_notin : forall c s, ~ In c s -> trim_end_c c s = s.
Proof.
  intros c s H. unfold trim_end_c. rewrite trim_start_c_notin. apply rev_involutive. intro K. apply H. now apply in_rev.
Qed.

Lemma trim_end_c_shape : forall c s, exists n, s = trim_end_c c s ++ repeat c n.
Proof.
  intros c s. unfold trim_end_c.
  assert (forall s, exists n, s = repeat c n ++ trim_start_c c s).
  { clear. induction s as [|x s [n IH]]; simpl.
    - now exists 0.
    - destruct (beqb x c) eqn:E.
      + apply beqb_eq in E. subst. exists (S n). simpl. now f_equal.
      + now exists 0. }
  destruct (H (rev s)) as [n E]. exists n. apply (f_equal (@rev byte)) in E.
  rewrite rev_involutive, rev_app_distr, rev_repeat in E. exact E.
Qed.

(** ** Membership in literal-free pieces *)

Lemma not_in_app : forall (c : byte) a b, ~ In c a -> ~ In c b -> ~ In c (a ++ b).
Proof. intros c a b Ha Hb K. apply in_app_or in K. tauto. Qed.

(** ** Lengths and numbers *)

Lemma blen_app : forall a b, blen (a ++ b) = (blen a + blen b)%N.
Proof. intros. unfold blen. rewrite app_length. lia. Qed.

Lemma byte_xor_involutive : forall a b, byte_xor (byte_xor a b) b = a.
Proof.
  intros a b. unfold byte_xor.
  destruct (Byte.to_bits a) as (a0,(a1,(a2,(a3,(a4,(a5,(a6,a7))))))) eqn:Ea.
  destruct (Byte.to_bits b) as (b0,(b1,(b2,(b3,(b4,(b5,(b6,b7))))))) eqn:Eb.
  rewrite Byte.to_bits_of_bits.
  rewrite <- (Byte.of_bits_to_bits a), Ea. f_equal. repeat f_equal;
  match goal with |- xorb (xorb ?x ?y) ?y = ?x => destruct x, y; reflexivity end.
Qed.

Lemma xor_bytes_length : forall a k, length (xor_bytes a k) = length a.
Proof. induction a as [|x a IH]; intros [|y k]; simpl; auto. Qed.

Lemma xor_bytes_involutive : forall a k, xor_bytes (xor_bytes a k) k = a.
Proof. induction a as [|x a IH]; intros [|y k]; simpl; auto. now rewrite byte_xor_involutive, IH. Qed.

Lemma N_to_be_length : forall len n, length (N_to_be len n) = len.
Proof. induction len as [|len IH]; intro n; simpl; auto. rewrite app_length, IH. simpl. lia. Qed.

Lemma byte_to_N_bound : forall b, (Byte.to_N b < 256)%N.
Proof. intro b. pose proof (Byte.to_N_bounded b). lia. Qed.

Lemma byte_of_N_to_N : forall b, byte_of_N (Byte.to_N b) = b.
Proof.
  intro b. unfold byte_of_N. rewrite N.mod_small by apply byte_to_N_bound. now rewrite Byte.of_to_N.
Qed.

Lemma in_range_spec : forall lo hi b, in_range lo hi b = true <-> (Byte.to_N lo <= Byte.to_N b <= Byte.to_N hi)%N.
Proof. intros. unfold in_range. rewrite andb_true_iff, !N.leb_le. tauto. Qed.
