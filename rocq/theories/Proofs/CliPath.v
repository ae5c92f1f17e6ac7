(** Facts about paths, format names and the configuration lookup. *)
From Verif.Model Require Import Cli.
From Verif.Spec Require Import SpecCli.
From Verif.Proofs Require Import BytesFacts.
Open Scope byte_scope.

(** ** Case *)
Lemma lower_word : forall s w, to_lower w = w -> (to_lower s = w <-> same_word s w).
Proof.
  assert (L : forall x y, lower1 y = y -> (lower1 x = y <-> same_letter x y)).
  { intros x y Hy. assert (BA : forall b d, (Byte.to_N b + d < 256)%N -> Byte.to_N (byte_add b d) = (Byte.to_N b + d)%N).
    { intros b d L. unfold byte_add. destruct (Byte.of_N (Byte.to_N b + d)) as [r|] eqn:E; [now apply Byte.to_of_N|]. apply Byte.of_N_None_iff in E. lia. }
    assert (INJ : forall a b, Byte.to_N a = Byte.to_N b -> a = b). { intros a b H. rewrite <- (byte_of_N_to_N a), <- (byte_of_N_to_N b). now rewrite H. }
    pose proof (byte_to_N_bound x) as Bx. pose proof (byte_to_N_bound y) as By.
    assert (R : forall z, in_range "A" "Z" z = true <-> (65 <= Byte.to_N z <= 90)%N) by (intro z; apply in_range_spec).
    assert (NY : ~ (65 <= Byte.to_N y <= 90)%N). { intro K. pose proof (proj2 (R y) K) as E. unfold lower1 in Hy. rewrite E in Hy. apply (f_equal Byte.to_N) in Hy. rewrite BA in Hy; lia. }
    unfold lower1. destruct (in_range "A" "Z" x) eqn:E.
    - apply R in E. split.
      + intros <-. right. exists (Byte.to_N x - 65)%N. split; [lia|]. left. rewrite BA; lia.
      + intros [->|(k & K & [[A B]|[A B]])]; try lia. apply INJ. rewrite BA; lia.
    - split; [now left|]. intros [->|(k & K & [[A B]|[A B]])]; auto; [|lia]. assert (in_range "A" "Z" x = true) by (apply R; lia). congruence. }
  intros s w. unfold to_lower, same_word. revert s. induction w as [|y w IH]; intros s H.
  - destruct s; cbn [map]; split; intro X; try discriminate; [constructor|reflexivity|inversion X].
  - cbn [map] in H. injection H as H1 H2. destruct s as [|x s]; cbn [map]; split; intro X; try discriminate; [inversion X| |].
    + injection X as X1 X2. constructor; [now apply L|now apply IH].
    + inversion X; subst. f_equal; [now apply L|now apply IH].
Qed.

Lemma format_of_name_means : forall s f, format_of_name s = Some f <-> means s f.
Proof.
  intros s f.
  assert (W : forall w, to_lower w = w -> (bytes_eqb (to_lower s) w = true <-> same_word s w)) by (intros w H; rewrite bytes_eqb_eq; now apply lower_word).
  assert (D : forall w w', to_lower w = w -> to_lower w' = w' -> same_word s w -> same_word s w' -> w = w').
  { intros w w' H H' S S'. apply lower_word in S; auto. apply lower_word in S'; auto. congruence. }
  unfold format_of_name, means, format_words. cbn [In]. split.
  - destruct (bytes_eqb (to_lower s) (lit "yaml")) eqn:E1; cbn [orb]. { intro H. injection H as <-. exists (lit "yaml"). split; auto. now apply (W (lit "yaml") eq_refl). }
    destruct (bytes_eqb (to_lower s) (lit "yml")) eqn:E2. { intro H. injection H as <-. exists (lit "yml"). split; auto. now apply (W (lit "yml") eq_refl). }
    destruct (bytes_eqb (to_lower s) (lit "json")) eqn:E3. { intro H. injection H as <-. exists (lit "json"). split; auto. now apply (W (lit "json") eq_refl). }
    destruct (bytes_eqb (to_lower s) (lit "toml")) eqn:E4; [|discriminate]. intro H. injection H as <-. exists (lit "toml"). split; auto 6. now apply (W (lit "toml") eq_refl).
  - intros (w & [H|[H|[H|[H|[]]]]] & S); injection H as <- <-.
    + apply (W (lit "yaml") eq_refl) in S. now rewrite S.
    + apply (W (lit "yml") eq_refl) in S. now rewrite S, orb_true_r.
    + pose proof S as S'. apply (W (lit "json") eq_refl) in S. destruct (bytes_eqb (to_lower s) (lit "yaml")) eqn:E1. { exfalso. apply (W (lit "yaml") eq_refl) in E1. now specialize (D _ _ eq_refl eq_refl S' E1). }
      destruct (bytes_eqb (to_lower s) (lit "yml")) eqn:E2. { exfalso. apply (W (lit "yml") eq_refl) in E2. now specialize (D _ _ eq_refl eq_refl S' E2). } cbn [orb]. now rewrite S.
    + pose proof S as S'. apply (W (lit "toml") eq_refl) in S. destruct (bytes_eqb (to_lower s) (lit "yaml")) eqn:E1. { exfalso. apply (W (lit "yaml") eq_refl) in E1. now specialize (D _ _ eq_refl eq_refl S' E1). }
      destruct (bytes_eqb (to_lower s) (lit "yml")) eqn:E2. { exfalso. apply (W (lit "yml") eq_refl) in E2. now specialize (D _ _ eq_refl eq_refl S' E2). }
      destruct (bytes_eqb (to_lower s) (lit "json")) eqn:E3. { exfalso. apply (W (lit "json") eq_refl) in E3. now specialize (D _ _ eq_refl eq_refl S' E3). } cbn [orb]. now rewrite S.
Qed.

(** ** File names *)
Definition quiet_piece (c : bytes) : bool := bytes_eqb c [] || bytes_eqb c (lit ".").
Lemma join_app : forall c a b, a <> [] -> b <> [] -> join_with c (a ++ b) = join_with c a ++ c :: join_with c b.
Proof.
  intros c a b Ha Hb. induction a as [|x a IH]; [now destruct Ha|]. destruct a as [|y a].
  - cbn. destruct b; [now destruct Hb|reflexivity].
  - cbn [app join_with] in *. rewrite IH by discriminate. now rewrite <- app_assoc.
Qed.
Lemma join_tail : forall c x after, join_with c (x :: after) = x ++ flat_map (fun d => c :: d) after.
Proof.
  intros c x after. revert x. induction after as [|y after IH]; intro x; cbn [join_with flat_map]; [now rewrite app_nil_r|].
  f_equal. cbn [app]. f_equal. exact (IH y).
Qed.
Lemma split_named : forall p before name after, (before = [] \/ exists d, before = d ++ ["/"]) -> ~ In "/" name -> Forall (fun c => c = [] \/ c = lit ".") after ->
  p = before ++ name ++ flat_map (fun c => "/" :: c) after -> exists a, split_on "/" p = a ++ name :: after.
Proof.
  intros p before name after B N A ->.
  assert (T : split_on "/" (name ++ flat_map (fun c => "/" :: c) after) = name :: after).
  { rewrite <- join_tail. apply split_join; [discriminate|]. intros q [<-|I]; auto. rewrite Forall_forall in A. destruct (A q I) as [->| ->]; cbn; [tauto|intros [H|[]]; discriminate]. }
  destruct B as [->|(d & ->)]; [exists []; exact T|]. exists (split_on "/" d). rewrite <- app_assoc. cbn [app].
  transitivity (split_on "/" (join_with "/" (split_on "/" d ++ name :: after))).
  - f_equal. rewrite join_app by (try apply split_on_nonempty; discriminate). rewrite join_split. do 2 f_equal. symmetry. apply join_tail.
  - apply split_join; [intro E; apply app_eq_nil in E; destruct E; discriminate|]. intros q I. apply in_app_or in I. destruct I as [I|[<-|I]]; auto; [eapply split_on_pieces; eauto|].
    rewrite Forall_forall in A. destruct (A q I) as [->| ->]; cbn; [tauto|intros [H|[]]; discriminate].
Qed.
Lemma file_name_named : forall p name, file_name p = Some name <-> named p name.
Proof.
  intros p name. unfold file_name.
  set (ok := fun c => negb (bytes_eqb c [] || bytes_eqb c (lit "."))).
  assert (Q : forall c, ok c = true <-> c <> [] /\ c <> lit ".").
  { intro c. unfold ok. rewrite negb_true_iff, orb_false_iff, !bytes_eqb_neq. tauto. }
  clearbody ok.
  assert (F : forall l c r, rev (filter ok l) = c :: r -> exists a after, l = a ++ c :: after /\ ok c = true /\ Forall (fun c => c = [] \/ c = lit ".") after).
  { intros l. induction l as [|x l IH] using rev_ind; intros c r H; [discriminate|]. rewrite filter_app, rev_app_distr in H. cbn [filter] in H. destruct (ok x) eqn:E.
    - cbn [rev app] in H. injection H as <- _. exists l, []. rewrite E. auto.
    - cbn [rev app] in H. destruct (IH _ _ H) as (a & after & -> & K & A). exists a, (after ++ [x]). rewrite <- app_assoc. split; auto. split; auto. apply Forall_app. split; auto. constructor; auto.
      destruct (bytes_eq_dec x []) as [->|X]; auto. destruct (bytes_eq_dec x (lit ".")) as [->|Y]; auto. exfalso. rewrite (proj2 (Q x)) in E by auto. discriminate. }
  split.
  - destruct (rev (filter ok (split_on "/" p))) as [|c r] eqn:E; [discriminate|]. destruct (bytes_eqb c (lit "..")) eqn:D; [discriminate|]. intro H. injection H as <-.
    destruct (F _ _ _ E) as (a & after & S & K & A). apply Q in K. apply bytes_eqb_neq in D.
    assert (N : ~ In "/" c). { eapply split_on_pieces. rewrite S. apply in_or_app. right. now left. }
    split; [tauto|]. split; [tauto|]. split; auto. split; auto.
    exists (match a with [] => [] | _ => join_with "/" a ++ ["/"] end), after. split; [destruct a; eauto|]. split; auto.
    rewrite <- (join_split "/" p), S, <- join_tail. destruct a as [|x a]; auto. rewrite join_app by discriminate. now rewrite <- app_assoc.
  - intros (N1 & N2 & N3 & NS & before & after & B & A & E). destruct (split_named p before name after B NS A E) as (a & S). rewrite S, filter_app. cbn [filter].
    assert (K : ok name = true) by (now apply Q). rewrite K.
    assert (Z : filter ok after = []). { clear -A Q. induction A as [|c after H _ IH]; auto. cbn [filter]. destruct (ok c) eqn:E; auto. apply Q in E. tauto. }
    unfold bytes in *. rewrite Z, rev_app_distr. cbn [rev app]. apply bytes_eqb_neq in N3. now rewrite N3.
Qed.
Lemma extension_has : forall p e, extension p = Some e <-> has_extension p e.
Proof.
  intros p e. unfold extension, has_extension. split.
  - destruct (file_name p) as [n|] eqn:N; [|discriminate]. apply file_name_named in N. destruct (rsplit_once "." n) as [[stem e']|] eqn:R; [|discriminate].
    destruct stem as [|x stem]; [discriminate|]. intro H. injection H as <-. apply rsplit_once_some in R. destruct R as [-> D]. exists (x :: stem). split; [discriminate|]. split; auto.
  - intros (stem & S & D & N). apply file_name_named in N. rewrite N. assert (R : rsplit_once "." (stem ++ "." :: e) = Some (stem, e)) by (apply rsplit_once_some; auto). rewrite R.
    destruct stem; [now destruct S|reflexivity].
Qed.

(** ** Text of paths *)
Lemma lossy_valid : forall s, utf8_valid s = true -> lossy s = s.
Proof.
  assert (C : forall n s, length s <= n -> utf8_valid s = true -> lossy s = s).
  { induction n as [|n IH]; intros s L V. { destruct s; [reflexivity|cbn in L; lia]. }
    destruct s as [|b1 s1]; auto. cbn [length] in L. cbn [utf8_valid] in V. cbn [lossy]. destruct (in_range x00 x7f b1). { f_equal. apply IH; auto. lia. }
    destruct s1 as [|b2 s2]; [discriminate|]. cbn [length] in L. destruct (ok2 b1 b2). { do 2 f_equal. apply IH; auto. lia. }
    destruct s2 as [|b3 s3]; [discriminate|]. cbn [length] in L. destruct (ok3 b1 b2) eqn:E3; cbn [andb] in V.
    - destruct (cont b3). { do 3 f_equal. apply IH; auto. lia. }
      exfalso. destruct s3 as [|b4 s4]; [discriminate|]. now rewrite andb_false_r in V.
    - destruct s3 as [|b4 s4]; [discriminate|]. cbn [length] in L. destruct (ok4 b1 b2); [|discriminate]. destruct (cont b3); [|discriminate]. destruct (cont b4); [|discriminate].
      do 4 f_equal. apply IH; auto. lia. }
  intros s V. eapply C; eauto.
Qed.
