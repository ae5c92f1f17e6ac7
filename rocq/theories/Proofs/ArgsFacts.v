(** Facts about the command line. *)
From Verif.Model Require Import Args.
From Verif.Spec Require Import SpecArgs.
From Verif.Proofs Require Import BytesFacts Utf8Facts.
Open Scope byte_scope.
Local Open Scope nat_scope.

(** * Splitting *)

Lemma an_option_iff : forall v a, an_option v a <-> has_arg v a = true /\ takes_value a = true.
Proof. intros v a. unfold an_option. destruct v, a; cbn; intuition (try discriminate). Qed.
Lemma a_flag_iff : forall v a, a_flag v a <-> has_arg v a = true /\ takes_value a = false.
Proof. intros v a. unfold a_flag. destruct v, a; cbn; intuition (try discriminate). Qed.
Lemma letter_iff : forall a c, letter_of a c <-> short_name a = Some c.
Proof. intros a c. split; [now intros []|]. destruct a; cbn; intro E; try discriminate; injection E as <-; constructor. Qed.
Lemma find_long_some : forall v n a, find_long v n = Some a -> has_arg v a = true /\ n = long_name a.
Proof. intros v n a H. apply find_some in H. destruct H as [_ H]. apply andb_true_iff in H. destruct H as [H E]. apply bytes_eqb_eq in E. auto. Qed.
Lemma find_long_name : forall v a, has_arg v a = true -> find_long v (long_name a) = Some a.
Proof. intros v a H. destruct v, a; try discriminate H; reflexivity. Qed.
Lemma find_short_some : forall v c a, find_short v c = Some a -> has_arg v a = true /\ short_name a = Some c.
Proof. intros v c a H. apply find_some in H. destruct H as [_ H]. apply andb_true_iff in H. destruct H as [H E]. destruct (short_name a) as [x|]; [|discriminate]. apply beqb_eq in E. subst. auto. Qed.
Lemma find_short_name : forall v a c, has_arg v a = true -> short_name a = Some c -> find_short v c = Some a.
Proof. intros v a c H E. destruct v, a; try discriminate H; try discriminate E; injection E as <-; reflexivity. Qed.

Lemma split_equals_some : forall t n x, split_equals t = (n, Some x) -> t = n ++ "=" :: x.
Proof.
  induction t as [|b t IH]; intros n x H; cbn [split_equals] in H; [discriminate|]. destruct (beqb b "=") eqn:E.
  - injection H as <- <-. apply beqb_eq in E. now subst.
  - destruct (split_equals t) as [m y]. injection H as <- ->. now rewrite (IH m x eq_refl).
Qed.
Lemma split_equals_none : forall t n, split_equals t = (n, None) -> t = n.
Proof.
  induction t as [|b t IH]; intros n H; cbn [split_equals] in H; [now injection H as <-|]. destruct (beqb b "="); [discriminate|].
  destruct (split_equals t) as [m y]. injection H as <- ->. now rewrite (IH m eq_refl).
Qed.
Lemma split_equals_name : forall a, split_equals (long_name a) = (long_name a, None).
Proof. now intros []. Qed.
Lemma split_equals_value : forall a x, split_equals (long_name a ++ "=" :: x) = (long_name a, Some x).
Proof. now intros []. Qed.
Lemma long_name_shape : forall a, exists b n, long_name a = b :: n.
Proof. intros []; cbn; eauto. Qed.

Lemma dashed_plain : forall t, dashed t = false <-> plain_value t.
Proof.
  intros [|b [|c t]]; cbn [dashed]; unfold plain_value.
  - split; auto. discriminate.
  - split; auto. intros _ t' E. now injection E as _ <-.
  - split.
    + intros H t' E. injection E as -> <-. rewrite (proj2 (beqb_eq "-" "-") eq_refl) in H. discriminate.
    + intros H. destruct (beqb b "-") eqn:E; auto. apply beqb_eq in E. subst. discriminate (H _ eq_refl).
Qed.

Lemma cluster_letters : forall v t is o, cluster v t = Some (is, o) -> letters v t is o.
Proof.
  intros v. induction t as [|c t IH]; intros is o H; cbn [cluster] in H.
  - injection H as <- <-. constructor.
  - destruct (find_short v c) as [a|] eqn:F; [|discriminate]. apply find_short_some in F. destruct F as [A S]. apply letter_iff in S. destruct (takes_value a) eqn:T.
    + pose proof (proj2 (an_option_iff v a) (conj A T)) as AT. destruct t as [|b x].
      * injection H as <- <-. now apply le_waiting.
      * injection H as <- <-. destruct (beqb b "=") eqn:E; [apply beqb_eq in E; subst; now apply le_equals|]. apply le_joined; auto. intros ->. now rewrite (proj2 (beqb_eq "=" "=") eq_refl) in E.
    + destruct (cluster v t) as [[is' o']|] eqn:C; [|discriminate]. injection H as <- <-. apply le_flag; auto. now apply a_flag_iff.
Qed.
Lemma letters_cluster : forall v t is o, letters v t is o -> cluster v t = Some (is, o).
Proof.
  intros v t is o H. induction H as [|c a t is o A S L IH|c a A S|c a b x A S N|c a x A S]; cbn [cluster]; auto; apply letter_iff in S; first [apply a_flag_iff in A|apply an_option_iff in A]; destruct A as [A T]; rewrite (find_short_name _ _ _ A S), T; auto.
  - now rewrite IH.
  - destruct (beqb b "=") eqn:E; auto. apply beqb_eq in E. contradiction.
Qed.
Lemma letters_dash : forall v t is o, ~ letters v ("-" :: t) is o.
Proof. intros v t is o H. apply letters_cluster in H. cbn [cluster] in H. destruct v; discriminate H. Qed.

Lemma cons_items_some : forall is o is', cons_items is o = Some is' -> exists r, o = Some r /\ is' = is ++ r.
Proof. intros is [r|] is' H; [|discriminate]. injection H as <-. eauto. Qed.

Lemma split_spells : forall v n ts is, length ts <= n -> split_line v ts = Some is -> spells v ts is.
Proof.
  intros v. induction n as [|n IH]; intros ts is L H.
  { destruct ts; [|cbn [length] in L; lia]. injection H as <-. constructor. }
  destruct ts as [|t ts]; [injection H as <-; constructor|]. cbn [length] in L.
  assert (VAL : forall a is1, (match ts with x :: ts' => if dashed x then None else cons_items (is1 ++ [Option_ a x]) (split_line v ts') | [] => None end) = Some is ->
            exists x ts' r, ts = x :: ts' /\ plain_value x /\ is = is1 ++ Option_ a x :: r /\ spells v ts' r).
  { intros a is1 E. destruct ts as [|x ts']; [discriminate|]. destruct (dashed x) eqn:D; [discriminate|]. apply cons_items_some in E. destruct E as (r & E & ->).
    exists x, ts', r. split; auto. split; [now apply dashed_plain|]. split; [now rewrite <- app_assoc|]. apply IH; auto. cbn [length] in L. lia. }
  cbn [split_line] in H. destruct (dashed t) eqn:D.
  - destruct t as [|b0 [|b t']]; try discriminate D. cbn [dashed] in D. apply beqb_eq in D. subst b0. destruct (beqb b "-") eqn:E.
    + apply beqb_eq in E. subst b. destruct t' as [|c t'].
      { injection H as <-. apply sp_rest. }
      destruct (split_equals (c :: t')) as [nm x] eqn:SE. destruct (find_long v nm) as [a|] eqn:F; [|destruct x; discriminate]. apply find_long_some in F. destruct F as [A ->]. destruct x as [x|].
      * destruct (takes_value a) eqn:T; [|discriminate]. apply cons_items_some in H. destruct H as (r & H & ->). apply split_equals_some in SE. rewrite SE. apply (sp_equals v a x ts r); [now apply an_option_iff|]. apply IH; auto. lia.
      * apply split_equals_none in SE. rewrite SE. destruct (takes_value a) eqn:T.
        -- apply VAL in H. destruct H as (x & ts' & r & -> & P & -> & S). apply (sp_long v a x ts' r); auto. now apply an_option_iff.
        -- apply cons_items_some in H. destruct H as (r & H & ->). apply (sp_flag v a ts r); [now apply a_flag_iff|]. apply IH; auto. lia.
    + destruct (cluster v (b :: t')) as [[is1 o]|] eqn:C; [|discriminate]. apply cluster_letters in C. destruct o as [a|].
      * apply VAL in H. destruct H as (x & ts' & r & -> & P & -> & S). now apply (sp_waiting v (b :: t') a is1 x ts' r).
      * apply cons_items_some in H. destruct H as (r & H & ->). apply (sp_letters v (b :: t') is1 ts r); auto; [discriminate|]. apply IH; auto. lia.
  - apply cons_items_some in H. destruct H as (r & H & ->). apply (sp_file v t ts r); [now apply dashed_plain|]. apply IH; auto. lia.
Qed.
Lemma spells_split : forall v ts is, spells v ts is -> split_line v ts = Some is.
Proof.
  assert (DD : beqb "-" "-" = true) by reflexivity.
  intros v ts is H. induction H as [|ts|t ts is P S IH|a x ts is A P S IH|a x ts is A S IH|a ts is A S IH|l is' ts is N L S IH|l a is' x ts is L P S IH]; auto.
  - cbn [split_line]. apply dashed_plain in P. now rewrite P, IH.
  - apply an_option_iff in A. destruct A as [A T]. change (long_of a) with (long_name a). pose proof (split_equals_name a) as V. destruct (long_name_shape a) as (b & n & E). apply dashed_plain in P. rewrite E in *. change (lit "--" ++ b :: n) with ("-" :: "-" :: b :: n). cbn [split_line dashed]. rewrite !DD, V, <- E, (find_long_name _ _ A), T, P, IH. reflexivity.
  - apply an_option_iff in A. destruct A as [A T]. change (long_of a) with (long_name a). pose proof (split_equals_value a x) as V. destruct (long_name_shape a) as (b & n & E). rewrite E in *. change (lit "--" ++ (b :: n) ++ "=" :: x) with ("-" :: "-" :: b :: n ++ "=" :: x). change ((b :: n) ++ "=" :: x) with (b :: n ++ "=" :: x) in V.
    cbn [split_line dashed]. rewrite !DD, V, <- E, (find_long_name _ _ A), T, IH. reflexivity.
  - apply a_flag_iff in A. destruct A as [A T]. change (long_of a) with (long_name a). pose proof (split_equals_name a) as V. destruct (long_name_shape a) as (b & n & E). rewrite E in *. change (lit "--" ++ b :: n) with ("-" :: "-" :: b :: n). cbn [split_line dashed]. rewrite !DD, V, <- E, (find_long_name _ _ A), T, IH. reflexivity.
  - destruct l as [|b l]; [contradiction|]. cbn [split_line dashed]. rewrite DD. destruct (beqb b "-") eqn:E; [apply beqb_eq in E; subst; now destruct (letters_dash _ _ _ _ L)|].
    rewrite (letters_cluster _ _ _ _ L), IH. reflexivity.
  - destruct l as [|b l]; [inversion L|]. cbn [split_line dashed]. rewrite DD. destruct (beqb b "-") eqn:E; [apply beqb_eq in E; subst; now destruct (letters_dash _ _ _ _ L)|].
    apply dashed_plain in P. rewrite (letters_cluster _ _ _ _ L), P, IH. cbn [cons_items option_map]. now rewrite <- app_assoc.
Qed.
Lemma split_line_iff : forall v ts is, split_line v ts = Some is <-> spells v ts is.
Proof. intros v ts is. split; [now apply (split_spells v (length ts))|apply spells_split]. Qed.

(** Options and flags are those of the command. *)
Definition item_of (v : verb) (i : item) : Prop := match i with Option_ a _ => an_option v a | Flag a => a_flag v a | File _ => True end.
Lemma letters_items : forall v t is o, letters v t is o -> Forall (item_of v) is /\ forall a, o = Some a -> an_option v a.
Proof.
  intros v t is o H. induction H as [|c a t is o F S L [IH IO]|c a A S|c a b x A S N|c a x A S]; split; try discriminate; auto.
  - intros b E. now injection E as <-.
Qed.
Lemma spells_items : forall v ts is, spells v ts is -> Forall (item_of v) is.
Proof.
  intros v ts is H. induction H as [|ts|t ts is P S IH|a x ts is A P S IH|a x ts is A S IH|a ts is A S IH|l is' ts is N L S IH|l a is' x ts is L P S IH]; auto.
  - induction ts; constructor; auto. exact Logic.I.
  - constructor; auto. exact Logic.I.
  - apply Forall_app. split; auto. apply (letters_items _ _ _ _ L).
  - destruct (letters_items _ _ _ _ L) as [I O]. apply Forall_app. split; auto. constructor; auto. now apply O.
Qed.

(** * Reading *)

Lemma values_app : forall a is js, values a (is ++ js) = values a is ++ values a js.
Proof. intros. apply flat_map_app. Qed.
Lemma files_app : forall is js, files (is ++ js) = files is ++ files js.
Proof. intros. apply flat_map_app. Qed.
Lemma times_app : forall a is js, times a (is ++ js) = times a is + times a js.
Proof. intros. unfold times. now rewrite filter_app, app_length. Qed.

Lemma values_absent : forall v a is, Forall (item_of v) is -> has_arg v a = false -> values a is = [].
Proof.
  intros v a is F H. induction F as [|i is I F IH]; auto. destruct i as [b x|b|x]; cbn; auto. destruct (arg_dec a b) as [<-|]; auto. apply an_option_iff in I. destruct I as [I _]. congruence.
Qed.
Lemma times_absent : forall v a is, Forall (item_of v) is -> has_arg v a = false -> times a is = 0.
Proof.
  intros v a is F H. induction F as [|i is I F IH]; auto. unfold times in *. destruct i as [b x|b|x]; cbn; auto. destruct (arg_dec a b) as [<-|]; auto. apply a_flag_iff in I. destruct I as [I _]. congruence.
Qed.

Section Reading.
  Context (re : regex_engine) (ag : age_crate).

  (** The fields hold what the items say. *)
  Record fits (is : list item) (g : fields) : Prop := {
    ft_age : Forall2 (age_value ag) (values AAge is) (fd_age g);
    ft_kms : Forall2 kms_value (values AKms is) (fd_kms g);
    ft_esuffix : once text_value (values AESuffix is) (fd_esuffix g);
    ft_eregex : once (pattern_value re) (values AERegex is) (fd_eregex g);
    ft_usuffix : once text_value (values AUSuffix is) (fd_usuffix g);
    ft_uregex : once (pattern_value re) (values AURegex is) (fd_uregex g);
    ft_only : switch AOnly is (fd_only g);
    ft_config : once file_value (values AConfig is) (fd_config g);
    ft_format : once names_format (values AFormat is) (fd_format g);
    ft_in_place : switch AInPlace is (fd_in_place g);
    ft_file : once file_value (files is) (fd_file g);
    ft_help : times AHelp is = 0 }.

  Lemma string_value_iff : forall s x, string_value s = Some x <-> text_value s x.
  Proof.
    intros s x. unfold string_value, text_value. rewrite <- utf8_valid_iff. destruct (utf8_valid s); split.
    - intro H. now injection H as <-.
    - now intros [_ ->].
    - discriminate.
    - now intros [H _].
  Qed.
  Lemma regex_value_iff : forall s x, regex_value re s = Some x <-> pattern_value re s x.
  Proof.
    intros s x. unfold regex_value, pattern_value. rewrite <- utf8_valid_iff. destruct (utf8_valid s), (re_valid re s); split; cbn [andb]; try discriminate.
    - intro H. now injection H as <-.
    - now intros (_ & _ & ->).
    - now intros (_ & H & _).
    - now intros (H & _).
    - now intros (H & _).
  Qed.
  Lemma path_value_iff : forall s x, path_value s = Some x <-> file_value s x.
  Proof.
    intros [|b s] x; unfold file_value; cbn; split; try discriminate.
    - now intros [H _].
    - intro H. injection H as <-. split; congruence.
    - now intros [_ ->].
  Qed.
  Lemma format_value_iff : forall s x, format_value s = Some x <-> names_format s x.
  Proof.
    intros s x. unfold format_value. split.
    - intro H. destruct (bytes_eqb s (lit "yaml")) eqn:A; [apply bytes_eqb_eq in A; injection H as <-; subst; constructor|]. destruct (bytes_eqb s (lit "yml")) eqn:B; [apply bytes_eqb_eq in B; injection H as <-; subst; constructor|]. cbn [orb] in H.
      destruct (bytes_eqb s (lit "json")) eqn:C; [apply bytes_eqb_eq in C; injection H as <-; subst; constructor|]. destruct (bytes_eqb s (lit "toml")) eqn:D; [apply bytes_eqb_eq in D; injection H as <-; subst; constructor|discriminate].
    - intros []; reflexivity.
  Qed.

  Lemma once_add : forall {A} (rd : bytes -> A -> Prop) (parse : bytes -> option A) upd vs o s g', (forall s x, parse s = Some x <-> rd s x) ->
    once rd vs o -> set_once o (parse s) upd = Run g' -> exists x, g' = upd (Some x) /\ once rd (vs ++ [s]) (Some x).
  Proof.
    intros A rd parse upd vs o s g' P H R. unfold set_once in R. destruct o as [y|]; [discriminate|]. destruct (parse s) as [x|] eqn:E; [|discriminate]. injection R as <-. exists x. split; auto. cbn in H. subst vs. exists s. split; auto. now apply P.
  Qed.
  Lemma once_last : forall {A} (rd : bytes -> A -> Prop) (parse : bytes -> option A) upd vs o s rest oF, (forall s x, parse s = Some x <-> rd s x) ->
    once rd vs o -> once rd (vs ++ s :: rest) oF -> exists x, set_once o (parse s) upd = Run (upd (Some x)).
  Proof.
    intros A rd parse upd vs o s rest oF P H F. destruct oF as [y|]; cbn in F; [|now destruct vs]. destruct F as (s' & E & R). destruct vs as [|v vs]; [|destruct vs; discriminate]. injection E as -> ->.
    destruct o as [z|]; cbn in H; [destruct H as (? & H & _); discriminate|]. apply P in R. rewrite R. now exists y.
  Qed.

  Ltac step_tac F :=
    destruct F; constructor; cbn [fd_age fd_kms fd_esuffix fd_eregex fd_usuffix fd_uregex fd_only fd_config fd_format fd_in_place fd_file];
    unfold switch in *; rewrite ?values_app, ?files_app, ?times_app; 
    repeat match goal with
           | |- context [values ?a [?i]] => let r := eval cbn in (values a [i]) in change (values a [i]) with r
           | |- context [files [?i]] => let r := eval cbn in (files [i]) in change (files [i]) with r
           | |- context [times ?a [?i]] => let r := eval cbn in (times a [i]) in change (times a [i]) with r
           end; rewrite ?app_nil_r, ?Nat.add_0_r; auto.

  Lemma react_fits : forall is g i g', fits is g -> react re ag i g = Run g' -> fits (is ++ [i]) g'.
  Proof.
    intros is g i g' F H. destruct i as [a s|a|s]; [destruct a|destruct a|]; cbn [react] in H; try discriminate.
    - destruct (utf8_valid s) eqn:U; [|discriminate]. destruct (ag_recipient ag s) as [r|] eqn:R; [|discriminate]. injection H as <-. apply utf8_valid_iff in U. step_tac F. apply Forall2_app; auto. constructor; auto. now split.
    - destruct (utf8_valid s) eqn:U; [|discriminate]. destruct (parse_aws_key s) as [k|e|] eqn:R; try discriminate. injection H as <-. apply utf8_valid_iff in U. step_tac F. apply Forall2_app; auto. constructor; auto. now split.
    - eapply once_add in H; [|apply string_value_iff|apply (ft_esuffix _ _ F)]. destruct H as (x & -> & O). step_tac F.
    - eapply once_add in H; [|apply regex_value_iff|apply (ft_eregex _ _ F)]. destruct H as (x & -> & O). step_tac F.
    - eapply once_add in H; [|apply string_value_iff|apply (ft_usuffix _ _ F)]. destruct H as (x & -> & O). step_tac F.
    - eapply once_add in H; [|apply regex_value_iff|apply (ft_uregex _ _ F)]. destruct H as (x & -> & O). step_tac F.
    - eapply once_add in H; [|apply path_value_iff|apply (ft_config _ _ F)]. destruct H as (x & -> & O). step_tac F.
    - eapply once_add in H; [|apply format_value_iff|apply (ft_format _ _ F)]. destruct H as (x & -> & O). step_tac F.
    - destruct (fd_only g) eqn:B; [discriminate|]. injection H as <-. step_tac F. rewrite B in *. lia.
    - destruct (fd_in_place g) eqn:B; [discriminate|]. injection H as <-. step_tac F. rewrite B in *. lia.
    - eapply once_add in H; [|apply path_value_iff|apply (ft_file _ _ F)]. destruct H as (x & -> & O). step_tac F.
  Qed.
  Lemma fits_none : fits [] no_fields.
  Proof. constructor; cbn; auto; reflexivity. Qed.
  Lemma react_all_fits : forall js is g g', fits is g -> react_all re ag js g = Run g' -> fits (is ++ js) g'.
  Proof.
    induction js as [|i js IH]; intros is g g' F H; cbn [react_all] in H.
    - injection H as <-. now rewrite app_nil_r.
    - destruct (react re ag i g) as [g1| |] eqn:R; try discriminate. rewrite (app_assoc is [i] js : is ++ i :: js = _). eapply IH; [|exact H]. eapply react_fits; eauto.
  Qed.

  Definition proper (i : item) : Prop := match i with Option_ a _ => takes_value a = true | Flag a => takes_value a = false | File _ => True end.
  Lemma react_possible : forall is g i js gF, fits is g -> proper i -> fits (is ++ i :: js) gF -> exists g', react re ag i g = Run g'.
  Proof.
    intros is g i js gF F P G.
    destruct i as [a s|a|s]; [destruct a; try discriminate P|destruct a; try discriminate P|]; cbn [react].
    - pose proof (ft_age _ _ G) as X. rewrite values_app in X. cbn in X. apply Forall2_app_inv_l in X. destruct X as (l1 & l2 & _ & X & _). inversion X as [|? r ? ? [U R]]; subst. apply utf8_valid_iff in U. rewrite U, R. eauto.
    - pose proof (ft_kms _ _ G) as X. rewrite values_app in X. cbn in X. apply Forall2_app_inv_l in X. destruct X as (l1 & l2 & _ & X & _). inversion X as [|? r ? ? [U R]]; subst. apply utf8_valid_iff in U. rewrite U, R. eauto.
    - pose proof (ft_esuffix _ _ G) as X. rewrite values_app in X. cbn in X. edestruct (@once_last bytes) as (x & E); [apply string_value_iff|apply (ft_esuffix _ _ F)|exact X|]. rewrite E. eauto.
    - pose proof (ft_eregex _ _ G) as X. rewrite values_app in X. cbn in X. edestruct (@once_last bytes) as (x & E); [apply regex_value_iff|apply (ft_eregex _ _ F)|exact X|]. rewrite E. eauto.
    - pose proof (ft_usuffix _ _ G) as X. rewrite values_app in X. cbn in X. edestruct (@once_last bytes) as (x & E); [apply string_value_iff|apply (ft_usuffix _ _ F)|exact X|]. rewrite E. eauto.
    - pose proof (ft_uregex _ _ G) as X. rewrite values_app in X. cbn in X. edestruct (@once_last bytes) as (x & E); [apply regex_value_iff|apply (ft_uregex _ _ F)|exact X|]. rewrite E. eauto.
    - pose proof (ft_config _ _ G) as X. rewrite values_app in X. cbn in X. edestruct (@once_last bytes) as (x & E); [apply path_value_iff|apply (ft_config _ _ F)|exact X|]. rewrite E. eauto.
    - pose proof (ft_format _ _ G) as X. rewrite values_app in X. cbn in X. edestruct (@once_last fmt) as (x & E); [apply format_value_iff|apply (ft_format _ _ F)|exact X|]. rewrite E. eauto.
    - pose proof (ft_only _ _ G) as X. pose proof (ft_only _ _ F) as Y. unfold switch in *. rewrite times_app in X. cbn in X. destruct (fd_only g); [destruct (fd_only gF); lia|eauto].
    - pose proof (ft_in_place _ _ G) as X. pose proof (ft_in_place _ _ F) as Y. unfold switch in *. rewrite times_app in X. cbn in X. destruct (fd_in_place g); [destruct (fd_in_place gF); lia|eauto].
    - pose proof (ft_help _ _ G) as X. rewrite times_app in X. cbn in X. lia.
    - pose proof (ft_file _ _ G) as X. rewrite files_app in X. cbn in X. edestruct (@once_last bytes) as (x & E); [apply path_value_iff|apply (ft_file _ _ F)|exact X|]. rewrite E. eauto.
  Qed.
  Lemma react_all_possible : forall js is g gF, fits is g -> Forall proper js -> fits (is ++ js) gF -> exists g', react_all re ag js g = Run g'.
  Proof.
    induction js as [|i js IH]; intros is g gF F P G; cbn [react_all]; [eauto|]. inversion P as [|? ? Pi Pj]; subst. destruct (react_possible _ _ _ _ _ F Pi G) as (g1 & R). rewrite R.
    apply (IH (is ++ [i]) g1 gF); [exact (react_fits _ _ _ _ F R)|auto|]. rewrite <- app_assoc. exact G.
  Qed.

  Lemma once_det : forall {A} (rd : bytes -> A -> Prop) vs o o', (forall s x y, rd s x -> rd s y -> x = y) -> once rd vs o -> once rd vs o' -> o = o'.
  Proof.
    intros A rd vs [x|] [y|] D H H'; cbn in *; auto.
    - destruct H as (s & -> & R), H' as (s' & E & R'). injection E as <-. f_equal. eauto.
    - destruct H as (s & -> & _). discriminate.
    - destruct H' as (s & -> & _). discriminate.
  Qed.
  Lemma many_det : forall {A} (rd : bytes -> A -> Prop) vs l l', (forall s x y, rd s x -> rd s y -> x = y) -> Forall2 rd vs l -> Forall2 rd vs l' -> l = l'.
  Proof. intros A rd vs l l' D H. revert l'. induction H as [|s x vs l R H IH]; intros l' H'; inversion H'; subst; auto. f_equal; eauto. Qed.
  Lemma switch_det : forall a is b b', switch a is b -> switch a is b' -> b = b'.
  Proof. unfold switch. intros a is [] []; intros; auto; lia. Qed.
  Lemma text_det : forall s x y, text_value s x -> text_value s y -> x = y. Proof. intros s x y [_ ->] [_ ->]. reflexivity. Qed.
  Lemma pattern_det : forall s x y, pattern_value re s x -> pattern_value re s y -> x = y. Proof. intros s x y (_ & _ & ->) (_ & _ & ->). reflexivity. Qed.
  Lemma file_det : forall s x y, file_value s x -> file_value s y -> x = y. Proof. intros s x y [_ ->] [_ ->]. reflexivity. Qed.
  Lemma age_det : forall s x y, age_value ag s x -> age_value ag s y -> x = y. Proof. intros s x y [_ A] [_ B]. congruence. Qed.
  Lemma kms_det : forall s x y, kms_value s x -> kms_value s y -> x = y. Proof. intros s x y [_ A] [_ B]. congruence. Qed.
  Lemma format_det : forall s x y, names_format s x -> names_format s y -> x = y. Proof. intros s x y A B. apply format_value_iff in A, B. congruence. Qed.
  Lemma fits_det : forall is g g', fits is g -> fits is g' -> g = g'.
  Proof.
    intros is g g' F G. destruct F as [A1 A2 A3 A4 A5 A6 A7 A8 A9 A10 A11 _], G as [B1 B2 B3 B4 B5 B6 B7 B8 B9 B10 B11 _].
    apply (many_det _ _ _ _ age_det B1) in A1. apply (many_det _ _ _ _ kms_det B2) in A2. apply (once_det _ _ _ _ text_det B3) in A3. apply (once_det _ _ _ _ pattern_det B4) in A4. apply (once_det _ _ _ _ text_det B5) in A5.
    apply (once_det _ _ _ _ pattern_det B6) in A6. apply (switch_det _ _ _ _ B7) in A7. apply (once_det _ _ _ _ file_det B8) in A8. apply (once_det _ _ _ _ format_det B9) in A9. apply (switch_det _ _ _ _ B10) in A10. apply (once_det _ _ _ _ file_det B11) in A11.
    destruct g, g'. cbn in *. congruence.
  Qed.
  Lemma react_all_iff : forall is g, Forall proper is -> (react_all re ag is no_fields = Run g <-> fits is g).
  Proof.
    intros is g P. split; intro H.
    - exact (react_all_fits is [] no_fields g fits_none H).
    - destruct (react_all_possible is [] no_fields g fits_none P H) as (g' & R). rewrite R. f_equal. eapply fits_det; [|exact H]. exact (react_all_fits is [] no_fields g' fits_none R).
  Qed.

  (** ** The command *)

  Lemma options_given_one : forall p, options_given p = 1 <-> exists r, option_given p r.
  Proof.
    intros [[a|] [b|] [c|] [d|]]; cbn; split; intro H; try discriminate; try (destruct H as (r & H); now inversion H); auto; eexists; constructor.
  Qed.
  Lemma options_given_none : forall p, options_given p = 0 -> p = {| pa_esuffix := None; pa_eregex := None; pa_usuffix := None; pa_uregex := None |}.
  Proof. intros [[a|] [b|] [c|] [d|]]; cbn; intro H; try discriminate; auto. Qed.
  Lemma given_one : forall {A} (o : option A), given o = 0 <-> o = None.
  Proof. intros A [x|]; cbn; split; congruence. Qed.

  Lemma fits_input : forall is g, fits is g -> says_input is (input_of g).
  Proof. intros is g F. destruct F. split; [|split]; auto. Qed.
  Lemma place_says : forall k is g c, fits is g -> parse_place k (input_of g) (fd_in_place g) = Some c ->
    exists a, c = k a /\ says_input is (pl_input a) /\ says_flag AInPlace is (in_file (pl_input a) <> None) (pl_in_place a).
  Proof.
    intros k is g c F H. unfold parse_place in H. destruct (fd_in_place g && _) eqn:B; [discriminate|]. injection H as <-. eexists. split; [reflexivity|]. cbn [pl_input pl_in_place]. split; [now apply fits_input|].
    exists (fd_in_place g). split; auto. split; [apply (ft_in_place _ _ F)|]. intro E. rewrite E in B. cbn [andb] in B. apply Nat.eqb_neq in B. intro N. apply B. now apply given_one.
  Qed.
  Lemma command_says : forall v is g c, fits is g -> command_of v g = Some c -> says re ag v is c.
  Proof.
    intros v is g c F H. split; [apply (ft_help _ _ F)|]. destruct v; cbn [command_of] in H.
    - unfold parse_encrypt in H. cbn [el_keys el_partial el_only el_input el_in_place] in H. cbv zeta in H.
      set (p := {| pa_esuffix := fd_esuffix g; pa_eregex := fd_eregex g; pa_usuffix := fd_usuffix g; pa_uregex := fd_uregex g |}) in *.
      destruct (_ || _ || _) eqn:B in H; [discriminate|]. injection H as <-. apply orb_false_iff in B. destruct B as [B B3]. apply orb_false_iff in B. destruct B as [B1 B2]. apply Nat.ltb_ge in B1.
      cbn [ea_input ea_keys ea_partial ea_only ea_in_place]. split; [now apply fits_input|]. split; [split; [apply (ft_age _ _ F)|apply (ft_kms _ _ F)]|].
      assert (R : says_rule re is (if options_given p =? 0 then None else Some p)).
      { destruct (options_given p =? 0) eqn:Z.
        - apply Nat.eqb_eq in Z. apply options_given_none in Z. unfold p in Z. injection Z as Z1 Z2 Z3 Z4. destruct F as [_ _ F3 F4 F5 F6 _ _ _ _ _ _]. rewrite Z1 in F3. rewrite Z2 in F4. rewrite Z3 in F5. rewrite Z4 in F6. cbn. auto.
        - apply Nat.eqb_neq in Z. destruct F. cbn. unfold p. cbn. split; auto. split; auto. split; auto. split; auto. apply options_given_one. fold p. lia. }
      split; auto. split.
      + exists (fd_only g). split; auto. split; [apply (ft_only _ _ F)|]. intro E. rewrite E in B2. cbn [andb] in B2. rewrite B2. discriminate.
      + exists (fd_in_place g). split; auto. split; [apply (ft_in_place _ _ F)|]. intro E. rewrite E in B3. cbn [andb] in B3. apply Nat.eqb_neq in B3. intro N. apply B3. now apply given_one.
    - destruct (place_says _ _ _ _ F H) as (a & -> & X). exact X.
    - injection H as <-. now apply fits_input.
    - destruct (fd_file g) as [p|] eqn:E; [|discriminate]. injection H as <-. destruct F. rewrite E in *. cbn. split; [split; auto|]. split; auto.
    - destruct (fd_file g) as [p|] eqn:E; [|discriminate]. injection H as <-. destruct F. rewrite E in *. cbn. split; [split; auto|]. split; auto.
    - destruct (place_says _ _ _ _ F H) as (a & -> & X). exact X.
  Qed.

  Ltac absent I := match goal with |- context [values ?a ?is] => rewrite (values_absent _ a is I eq_refl) end.
  Lemma place_command : forall v k is a, (v = VDecrypt /\ k = Decrypt) \/ (v = VRefresh /\ k = Refresh) -> Forall (item_of v) is -> times AHelp is = 0 ->
    says_input is (pl_input a) -> says_flag AInPlace is (in_file (pl_input a) <> None) (pl_in_place a) -> exists g, fits is g /\ command_of v g = Some (k a).
  Proof.
    intros v k is [[ic fm fl] ip] V I H (C & M & F) (b & E & S & N). cbn [pl_input pl_in_place in_config in_format in_file] in *. subst ip.
    exists {| fd_age := []; fd_kms := []; fd_esuffix := None; fd_eregex := None; fd_usuffix := None; fd_uregex := None; fd_only := false; fd_config := ic; fd_format := fm; fd_in_place := b; fd_file := fl |}. split.
    - constructor; unfold switch in *; cbn; auto; destruct V as [[-> ->]|[-> ->]]; try absent I; auto; try constructor; try (eapply times_absent; [exact I|reflexivity]).
    - assert (X : parse_place k {| in_config := ic; in_format := fm; in_file := fl |} b = Some (k {| pl_input := {| in_config := ic; in_format := fm; in_file := fl |}; pl_in_place := Some b |})).
      { unfold parse_place. cbn [in_file]. destruct b; auto. destruct fl as [x|]; auto. now destruct (N eq_refl). }
      destruct V as [[-> ->]|[-> ->]]; exact X.
  Qed.
  Lemma says_command : forall v is c, Forall (item_of v) is -> says re ag v is c -> exists g, fits is g /\ command_of v g = Some c.
  Proof.
    intros v is c I [H S]. destruct v, c as [a|a|a|a|a|a]; try contradiction.
    - destruct a as [ks pt on [ic fm fl] ip]. cbn [ea_input ea_keys ea_partial ea_only ea_in_place] in S. destruct S as ((C & M & F) & (A & K) & R & (b & -> & SO & NO) & (b' & -> & SP & NP)). cbn [in_config in_format in_file] in *.
      set (p := match pt with Some p => p | None => {| pa_esuffix := None; pa_eregex := None; pa_usuffix := None; pa_uregex := None |} end).
      exists {| fd_age := ks_age ks; fd_kms := ks_kms ks; fd_esuffix := pa_esuffix p; fd_eregex := pa_eregex p; fd_usuffix := pa_usuffix p; fd_uregex := pa_uregex p; fd_only := b; fd_config := ic; fd_format := fm; fd_in_place := b'; fd_file := fl |}.
      assert (G : options_given p = match pt with Some _ => 1 | None => 0 end). { destruct pt as [q|]; [|reflexivity]. apply options_given_one. apply R. }
      split.
      + assert (R' : once text_value (values AESuffix is) (pa_esuffix p) /\ once (pattern_value re) (values AERegex is) (pa_eregex p) /\ once text_value (values AUSuffix is) (pa_usuffix p) /\ once (pattern_value re) (values AURegex is) (pa_uregex p)).
        { destruct pt as [q|]; cbn in R |- *; tauto. }
        destruct R' as (R1 & R2 & R3 & R4). constructor; cbn [fd_age fd_kms fd_esuffix fd_eregex fd_usuffix fd_uregex fd_only fd_config fd_format fd_in_place fd_file]; auto.
      + cbn [command_of fd_esuffix fd_eregex fd_usuffix fd_uregex fd_only fd_in_place]. unfold parse_encrypt. cbn [el_keys el_partial el_only el_input el_in_place]. cbv zeta. replace {| pa_esuffix := pa_esuffix p; pa_eregex := pa_eregex p; pa_usuffix := pa_usuffix p; pa_uregex := pa_uregex p |} with p by now destruct p.
        rewrite G. unfold input_of, keys_of. cbn [fd_age fd_kms fd_config fd_format fd_file in_file set_true].
        assert (X : b' && (given fl =? 0) = false). { destruct b'; auto. destruct fl; auto. now destruct (NP eq_refl). } rewrite X.
        assert (Y : b && ((match pt with Some _ => 1 | None => 0 end) =? 0) = false). { destruct b; auto. destruct pt; auto. now destruct (NO eq_refl). } rewrite Y.
        destruct ks. destruct pt; reflexivity.
    - destruct S as [S1 S2]. apply (place_command VDecrypt Decrypt); auto.
    - destruct a as [ic fm fl], S as (C & M & F). cbn [in_config in_format in_file] in *.
      exists {| fd_age := []; fd_kms := []; fd_esuffix := None; fd_eregex := None; fd_usuffix := None; fd_uregex := None; fd_only := false; fd_config := ic; fd_format := fm; fd_in_place := false; fd_file := fl |}. split; [|reflexivity].
      constructor; unfold switch in *; cbn; auto; try absent I; auto; try constructor; try (eapply times_absent; [exact I|reflexivity]).
    - destruct a as [ks fm fl], S as ((A & K) & M & F). cbn [ka_keys ka_format ka_file] in *.
      exists {| fd_age := ks_age ks; fd_kms := ks_kms ks; fd_esuffix := None; fd_eregex := None; fd_usuffix := None; fd_uregex := None; fd_only := false; fd_config := None; fd_format := fm; fd_in_place := false; fd_file := Some fl |}. split; [|now destruct ks].
      constructor; unfold switch in *; cbn; auto; try absent I; auto; try (eapply times_absent; [exact I|reflexivity]).
    - destruct a as [ks fm fl], S as ((A & K) & M & F). cbn [ka_keys ka_format ka_file] in *.
      exists {| fd_age := ks_age ks; fd_kms := ks_kms ks; fd_esuffix := None; fd_eregex := None; fd_usuffix := None; fd_uregex := None; fd_only := false; fd_config := None; fd_format := fm; fd_in_place := false; fd_file := Some fl |}. split; [|now destruct ks].
      constructor; unfold switch in *; cbn; auto; try absent I; auto; try (eapply times_absent; [exact I|reflexivity]).
    - destruct S as [S1 S2]. apply (place_command VRefresh Refresh); auto.
  Qed.

  Lemma verb_names : forall ts v ts', verb_of ts = Some (v, ts') <-> exists ws, ts = ws ++ ts' /\ names ws v.
  Proof.
    intros ts v ts'. split.
    - intro H. destruct ts as [|t ts]; [discriminate|]. cbn [verb_of] in H.
      destruct (bytes_eqb t (lit "encrypt") || bytes_eqb t (lit "e")) eqn:A. { injection H as <- <-. exists [t]. split; auto. constructor. apply orb_true_iff in A. rewrite !bytes_eqb_eq in A. cbn. intuition. }
      destruct (bytes_eqb t (lit "decrypt") || bytes_eqb t (lit "d")) eqn:B. { injection H as <- <-. exists [t]. split; auto. constructor. apply orb_true_iff in B. rewrite !bytes_eqb_eq in B. cbn. intuition. }
      destruct (bytes_eqb t (lit "edit")) eqn:C. { injection H as <- <-. exists [t]. split; auto. apply bytes_eqb_eq in C. subst. constructor. }
      destruct (bytes_eqb t (lit "refresh")) eqn:D. { injection H as <- <-. exists [t]. split; auto. apply bytes_eqb_eq in D. subst. constructor. }
      destruct (bytes_eqb t (lit "keys") || bytes_eqb t (lit "k")) eqn:K; [|discriminate]. apply orb_true_iff in K. rewrite !bytes_eqb_eq in K. destruct ts as [|u ts]; [discriminate|].
      destruct (bytes_eqb u (lit "add")) eqn:E. { injection H as <- <-. apply bytes_eqb_eq in E. subst. exists [t; lit "add"]. split; auto. constructor. cbn. intuition. }
      destruct (bytes_eqb u (lit "remove")) eqn:F; [|discriminate]. injection H as <- <-. apply bytes_eqb_eq in F. subst. exists [t; lit "remove"]. split; auto. constructor. cbn. intuition.
    - intros (ws & -> & N). destruct N as [t T|t T| | |t T|t T]; try reflexivity; cbn [In] in T; destruct T as [<-|[<-|[]]]; reflexivity.
  Qed.

  Lemma item_proper : forall v is, Forall (item_of v) is -> Forall proper is.
  Proof. intros v is H. induction H as [|i is I H IH]; constructor; auto. destruct i as [a x|a|x]; cbn in *; auto; [apply an_option_iff in I|apply a_flag_iff in I]; apply I. Qed.
  Lemma parse_iff : forall ts c, parse_line re ag ts = Run c <-> line_says re ag ts c.
  Proof.
    intros ts c. unfold parse_line. split.
    - intro H. destruct (verb_of ts) as [[v ts']|] eqn:V; [|discriminate]. destruct (split_line v ts') as [is|] eqn:S; [|discriminate]. apply split_line_iff in S. pose proof (spells_items _ _ _ S) as I.
      destruct (react_all re ag is no_fields) as [g| |] eqn:R; try discriminate. destruct (command_of v g) as [c'|] eqn:C; [|discriminate]. injection H as ->. apply react_all_iff in R; [|eapply item_proper; eauto].
      apply verb_names in V. destruct V as (ws & -> & N). exists ws, v, ts', is. split; auto. split; auto. split; auto. eapply command_says; eauto.
    - intros (ws & v & ts' & is & -> & N & S & M). assert (V : verb_of (ws ++ ts') = Some (v, ts')) by (apply verb_names; eauto). rewrite V. pose proof (spells_items _ _ _ S) as I. apply split_line_iff in S. rewrite S.
      destruct (says_command _ _ _ I M) as (g & F & C). apply (react_all_iff is g) in F; [|eapply item_proper; eauto]. now rewrite F, C.
  Qed.
  Lemma react_crash : forall js g, react_all re ag js g = Crash -> exists s, In (Option_ AKms s) js /\ utf8_text s /\ parse_aws_key s = Panic.
  Proof.
    induction js as [|i js IH]; intros g H; cbn [react_all] in H; [discriminate|]. destruct (react re ag i g) as [g1| |] eqn:R; try discriminate.
    - destruct (IH _ H) as (s & I & X). exists s. split; [now right|auto].
    - destruct i as [a s|a|s]; [destruct a|destruct a|]; cbn [react] in R; try discriminate; unfold set_once in R;
        repeat match type of R with context [match ?x with _ => _ end] => destruct x eqn:?; try discriminate end.
      exists s. split; [now left|]. split; auto. now apply utf8_valid_iff.
  Qed.
  Lemma parse_accepted : forall ts c, parse_line re ag ts = Run c -> accepted c.
  Proof.
    intros ts c H. unfold parse_line in H. destruct (verb_of ts) as [[v ts']|]; [|discriminate]. destruct (split_line v ts') as [is|]; [|discriminate]. destruct (react_all re ag is no_fields) as [g| |]; try discriminate.
    destruct (command_of v g) as [c'|] eqn:C; [|discriminate]. injection H as ->. destruct v; cbn [command_of] in C.
    - eapply acc_encrypt; eauto.
    - eapply acc_decrypt; eauto.
    - injection C as <-. constructor.
    - destruct (fd_file g); [|discriminate]. injection C as <-. constructor.
    - destruct (fd_file g); [|discriminate]. injection C as <-. constructor.
    - eapply acc_refresh; eauto.
  Qed.
End Reading.

(** * Writing a line *)

Definition token (i : item) : bytes :=
  match i with Option_ a x => lit "--" ++ long_name a ++ "=" :: x | Flag a => lit "--" ++ long_name a | File x => x end.
Definition is_file (i : item) : bool := match i with File _ => true | _ => false end.
Definition file_tokens (o : option bytes) : list bytes := match o with Some f => [lit "--"; f] | None => [] end.
Definition file_items (o : option bytes) : list item := match o with Some f => [File f] | None => [] end.
Lemma tokens_spell : forall v is o, Forall (item_of v) is -> Forall (fun i => is_file i = false) is -> spells v (map token is ++ file_tokens o) (is ++ file_items o).
Proof.
  intros v is o H N. induction H as [|i is I H IH]; cbn [map app].
  - destruct o as [f|]; [exact (sp_rest v [f])|constructor].
  - inversion N; subst. destruct i as [a x|a|x]; try discriminate; cbn [token item_of] in *; [apply sp_equals|apply sp_flag]; auto.
Qed.

Definition optional (a : arg) (o : option bytes) : list item := match o with Some x => [Option_ a x] | None => [] end.
Definition switched (a : arg) (b : bool) : list item := if b then [Flag a] else [].
Lemma values_many : forall a b l, values a (map (Option_ b) l) = if arg_dec a b then l else [].
Proof. intros a b l. induction l as [|x l IH]; cbn; [now destruct arg_dec|]. unfold values in *. cbn. rewrite IH. now destruct (arg_dec a b). Qed.
Lemma values_optional : forall a b o, values a (optional b o) = if arg_dec a b then match o with Some x => [x] | None => [] end else [].
Proof. intros a b [x|]; cbn; destruct (arg_dec a b); auto. Qed.
Lemma values_switched : forall a b x, values a (switched b x) = [].
Proof. intros a b []; auto. Qed.
Lemma values_file : forall a o, values a (file_items o) = [].
Proof. intros a [x|]; auto. Qed.
Lemma files_many : forall b l, files (map (Option_ b) l) = [].
Proof. intros b l. induction l as [|x l IH]; auto. Qed.
Lemma files_optional : forall b o, files (optional b o) = [].
Proof. intros b [x|]; auto. Qed.
Lemma files_switched : forall b x, files (switched b x) = [].
Proof. intros b []; auto. Qed.
Lemma files_file : forall o, files (file_items o) = match o with Some x => [x] | None => [] end.
Proof. intros [x|]; auto. Qed.
Lemma times_many : forall a b l, times a (map (Option_ b) l) = 0.
Proof. intros a b l. induction l as [|x l IH]; auto. Qed.
Lemma times_optional : forall a b o, times a (optional b o) = 0.
Proof. intros a b [x|]; auto. Qed.
Lemma times_switched : forall a b x, times a (switched b x) = if arg_dec a b then if x then 1 else 0 else 0.
Proof. intros a b []; cbn; unfold times; cbn; destruct (arg_dec a b); auto. Qed.
Lemma times_file : forall a o, times a (file_items o) = 0.
Proof. intros a [x|]; auto. Qed.

Lemma many_texts : forall {A} (rd : bytes -> A -> Prop) l, Forall (can_write rd) l -> exists ss, Forall2 rd ss l.
Proof. intros A rd l H. induction H as [|x l (s & R) H (ss & IH)]; [exists []; constructor|]. exists (s :: ss). now constructor. Qed.
Lemma maybe_text : forall {A} (rd : bytes -> A -> Prop) o, maybe (can_write rd) o -> exists so, once rd (match so with Some s => [s] | None => [] end) o.
Proof. intros A rd [x|] H; cbn in *; [|now exists None]. destruct H as (s & R). exists (Some s). eauto. Qed.
Definition format_text (f : fmt) : bytes := match f with Yaml => lit "yaml" | Json => lit "json" | Toml => lit "toml" end.
Lemma format_texts : forall o, exists so, once names_format (match so with Some s => [s] | None => [] end) o.
Proof. intros [f|]; cbn; [|now exists None]. exists (Some (format_text f)), (format_text f). split; auto. destruct f; constructor. Qed.

(** All the items of a line. *)
Definition line_items (age kms : list bytes) (es er us ur cf fm : option bytes) (only ip : bool) (fl : option bytes) : list item :=
  (map (Option_ AAge) age ++ map (Option_ AKms) kms ++ optional AESuffix es ++ optional AERegex er ++ optional AUSuffix us ++ optional AURegex ur
    ++ optional AConfig cf ++ optional AFormat fm ++ switched AOnly only ++ switched AInPlace ip) ++ file_items fl.
Ltac items := unfold line_items; rewrite ?values_app, ?files_app, ?times_app, ?values_many, ?values_optional, ?values_switched, ?values_file, ?files_many, ?files_optional, ?files_switched, ?files_file, ?times_many, ?times_optional, ?times_switched, ?times_file;
  cbn [arg_dec arg_rec arg_rect app Nat.add]; rewrite ?app_nil_r, ?Nat.add_0_r.
Lemma line_written : forall re ag v ws c age kms es er us ur cf fm only ip fl, names ws v ->
  Forall (item_of v) (line_items age kms es er us ur cf fm only ip fl) -> says re ag v (line_items age kms es er us ur cf fm only ip fl) c -> exists ts, parse_line re ag ts = Run c.
Proof.
  intros re ag v ws c age kms es er us ur cf fm only ip fl N I S. unfold line_items in *. set (is := map (Option_ AAge) age ++ _) in *. apply Forall_app in I. destruct I as [I _].
  exists (ws ++ map token is ++ file_tokens fl). apply parse_iff. exists ws, v, (map token is ++ file_tokens fl), (is ++ file_items fl). split; auto. split; auto. split; auto. apply tokens_spell; auto.
  subst is. clear. repeat (apply Forall_app; split).
  - induction age; constructor; auto.
  - induction kms; constructor; auto.
  - destruct es; repeat constructor.
  - destruct er; repeat constructor.
  - destruct us; repeat constructor.
  - destruct ur; repeat constructor.
  - destruct cf; repeat constructor.
  - destruct fm; repeat constructor.
  - destruct only; repeat constructor.
  - destruct ip; repeat constructor.
Qed.
Lemma items_of : forall v age kms es er us ur cf fm only ip fl, (has_arg v AAge = false -> age = []) -> (has_arg v AKms = false -> kms = []) ->
  (has_arg v AESuffix = false -> es = None) -> (has_arg v AERegex = false -> er = None) -> (has_arg v AUSuffix = false -> us = None) -> (has_arg v AURegex = false -> ur = None) ->
  (has_arg v AConfig = false -> cf = None) -> (has_arg v AOnly = false -> only = false) -> (has_arg v AInPlace = false -> ip = false) ->
  Forall (item_of v) (line_items age kms es er us ur cf fm only ip fl).
Proof.
  intros v age kms es er us ur cf fm only ip fl H1 H2 H3 H4 H5 H6 H7 H8 H9. unfold line_items.
  assert (M : forall a l, takes_value a = true -> (has_arg v a = false -> l = []) -> Forall (item_of v) (map (Option_ a) l)).
  { intros a l T H. destruct (has_arg v a) eqn:E; [|rewrite H by auto; constructor]. induction l; constructor; [now apply an_option_iff|]. apply IHl. congruence. }
  assert (P : forall a o, takes_value a = true -> (has_arg v a = false -> o = None) -> Forall (item_of v) (optional a o)).
  { intros a o T H. destruct (has_arg v a) eqn:E; [|rewrite H by auto; constructor]. destruct o; constructor; [now apply an_option_iff|constructor]. }
  assert (Q : forall a b, takes_value a = false -> (has_arg v a = false -> b = false) -> Forall (item_of v) (switched a b)).
  { intros a b T H. destruct (has_arg v a) eqn:E; [|rewrite H by auto; constructor]. destruct b; constructor; [now apply a_flag_iff|constructor]. }
  repeat (apply Forall_app; split); auto.
  - apply P; auto. now destruct v.
  - destruct fl; repeat constructor.
Qed.
