(** [shlex_split] reads exactly the words of the grammar of Spec/SpecShell.v. *)
From Verif.Model Require Import Utf8 Shlex.
From Verif.Spec Require Import SpecShell.
From Verif.Proofs Require Import BytesFacts Utf8Facts.
From Coq Require Import Lia.
Open Scope byte_scope.

Lemma blank_iff : forall b, blank b = true <-> In b blanks.
Proof.
  intro b. unfold blank, blanks, newline. rewrite !orb_true_iff, !beqb_eq. cbn [In]. intuition congruence.
Qed.
Lemma blank_not : forall b, blank b = false <-> ~ In b blanks.
Proof. intro b. rewrite <- blank_iff. now destruct (blank b). Qed.
Lemma touchy_iff : forall b, beqb b "$" || beqb b "`" || beqb b x22 || beqb b "\" = true <-> In b touchy.
Proof. intro b. unfold touchy. rewrite !orb_true_iff, !beqb_eq. cbn [In]. intuition congruence. Qed.
Lemma beqb_no : forall a b, a <> b -> beqb a b = false.
Proof. intros a b N. destruct (beqb a b) eqn:E; auto. apply beqb_eq in E. contradiction. Qed.
Lemma beqb_no' : forall a b, beqb a b = false -> a <> b.
Proof. intros a b E ->. now rewrite beqb_refl in E. Qed.

(** ** From the grammar to the words *)
Lemma single_read : forall t w r, ~ In "'" t -> shlex_from InSingle w (t ++ r) = shlex_from InSingle (w ++ t) r.
Proof.
  induction t as [|b t IH]; intros w r N; cbn [app]; [now rewrite app_nil_r|]. cbn [shlex_from shlex_step]. rewrite beqb_no by (intros ->; apply N; now left).
  rewrite IH by (intro I; apply N; now right). now rewrite <- app_assoc.
Qed.
Lemma double_read : forall t m, inside t m -> forall w r, shlex_from InDouble w (t ++ r) = shlex_from InDouble (w ++ m) r.
Proof.
  intros t m I. induction I as [|b t m N1 N2 I IH|b t m T I IH|t m I IH|b t m T N I IH]; intros w r; cbn [app].
  - now rewrite app_nil_r.
  - cbn [shlex_from shlex_step]. rewrite !beqb_no by auto. rewrite IH. now rewrite <- app_assoc.
  - cbn [shlex_from shlex_step]. change (beqb "\" "\") with true. cbn [shlex_from shlex_step]. rewrite (proj2 (touchy_iff b) T). rewrite IH. now rewrite <- app_assoc.
  - cbn [shlex_from shlex_step]. change (beqb "\" "\") with true. cbn [shlex_from shlex_step]. unfold newline. change (beqb x0a "$" || beqb x0a "`" || beqb x0a x22 || beqb x0a "\") with false. change (beqb x0a x0a) with true. apply IH.
  - cbn [shlex_from shlex_step]. change (beqb "\" "\") with true. cbn [shlex_from shlex_step]. destruct (_ || _ || _ || _) eqn:E; [now apply touchy_iff in E|]. rewrite beqb_no by auto. rewrite IH. now rewrite <- app_assoc.
Qed.
Lemma piece_read : forall t m, piece t m -> forall w r, shlex_from InWord w (t ++ r) = shlex_from InWord (w ++ m) r.
Proof.
  intros t m [b NB N1 N2 N3|b N| |u N|u v I] w r; cbn [app shlex_from shlex_step]; unfold word_step.
  - rewrite !beqb_no by auto. now rewrite (proj2 (blank_not b) NB).
  - change (beqb "\" x22) with false. change (beqb "\" "'") with false. change (beqb "\" "\") with true. cbn [shlex_from shlex_step]. now rewrite beqb_no by auto.
  - change (beqb "\" x22) with false. change (beqb "\" "'") with false. change (beqb "\" "\") with true. cbn [shlex_from shlex_step]. unfold newline. change (beqb x0a x0a) with true. now rewrite app_nil_r.
  - change (beqb "'" x22) with false. change (beqb "'" "'") with true. cbn iota. rewrite <- app_assoc, single_read by exact N. cbn [app shlex_from shlex_step]. now change (beqb "'" "'") with true.
  - change (beqb x22 x22) with true. cbn iota. rewrite <- app_assoc, (double_read u v) by exact I. cbn [app shlex_from shlex_step]. change (beqb x22 "\") with false. now change (beqb x22 x22) with true.
Qed.
Lemma pieces_read : forall t m, pieces t m -> forall w r, shlex_from InWord w (t ++ r) = shlex_from InWord (w ++ m) r.
Proof.
  intros t m P. induction P as [|t m t' m' P PS IH]; intros w r; cbn [app]; [now rewrite app_nil_r|]. rewrite <- app_assoc, (piece_read t m P), IH. now rewrite <- app_assoc.
Qed.
Lemma pieces_start : forall b t m, pieces (b :: t) m -> ~ In b blanks.
Proof.
  intros b t m P. inversion P as [|t1 m1 t2 m2 Q PS E1 E2]; subst. clear P. revert b t E1.
  destruct Q as [c NB N1 N2 N3|c N| |u N|u v I]; intros b t E; cbn [app] in E; injection E as <- _; auto; unfold blanks, newline; cbn [In]; intuition discriminate.
Qed.
Lemma word_read : forall t m, word t m -> forall r, shlex_from Before [] (t ++ r) = shlex_from InWord m r.
Proof.
  intros t m (P & b & t' & -> & N) r. change m with ([] ++ m). rewrite <- (pieces_read _ _ P [] r). apply pieces_start in P. cbn [app shlex_from shlex_step]. rewrite (proj2 (blank_not b) P). now rewrite (beqb_no b "#") by exact N.
Qed.
Lemma comment_read : forall c r, ~ In newline c -> shlex_from Remark [] (c ++ r) = shlex_from Remark [] r.
Proof.
  induction c as [|b c IH]; intros r N; cbn [app]; auto. cbn [shlex_from shlex_step]. rewrite beqb_no by (intros ->; apply N; now left). apply IH. intro I. apply N. now right.
Qed.
Lemma gap_read : forall g, gap g -> forall r, shlex_from Before [] (g ++ r) = shlex_from Before [] r.
Proof.
  intros g G. induction G as [|b t B G IH|c t N G IH]; intro r; cbn [app]; auto.
  - cbn [shlex_from shlex_step]. rewrite (proj2 (blank_iff b) B). apply IH.
  - rewrite <- app_assoc. cbn [shlex_from shlex_step]. change (blank "#") with false. change (beqb "#" "#") with true. cbn iota. rewrite comment_read by exact N. cbn [app shlex_from shlex_step]. unfold newline. change (beqb x0a x0a) with true. apply IH.
Qed.
Lemma words_read : forall t ws, shell_words t ws -> shlex_split t = Some ws.
Proof.
  intros t ws H. unfold shlex_split. induction H as [g G|g c G N|g t w G W|g t w b t' ws G W B H IH].
  - rewrite <- (app_nil_r g), gap_read by exact G. reflexivity.
  - rewrite gap_read by exact G. cbn [shlex_from shlex_step]. change (blank "#") with false. change (beqb "#" "#") with true. cbn iota. rewrite <- (app_nil_r c), comment_read by exact N. reflexivity.
  - rewrite gap_read by exact G. rewrite <- (app_nil_r t), (word_read t w W). reflexivity.
  - rewrite gap_read by exact G. rewrite (word_read t w W). cbn [shlex_from shlex_step]. unfold word_step.
    assert (X : beqb b x22 = false /\ beqb b "'" = false /\ beqb b "\" = false). { unfold blanks, newline in B. cbn [In] in B. destruct B as [<-|[<-|[<-|[]]]]; auto. }
    destruct X as (-> & -> & ->). rewrite (proj2 (blank_iff b) B). now rewrite IH.
Qed.

(** ** From the words to the grammar *)
Lemma pieces_app : forall t m t' m', pieces t m -> pieces t' m' -> pieces (t ++ t') (m ++ m').
Proof. intros t m t' m' P. revert t' m'. induction P as [|t m u v P PS IH]; intros t' m' Q; auto. rewrite <- !app_assoc. constructor; auto. Qed.
Lemma pieces_one : forall t m, piece t m -> pieces t m.
Proof. intros t m P. rewrite <- (app_nil_r t), <- (app_nil_r m). constructor; auto. constructor. Qed.
Lemma inside_app : forall t m t' m', inside t m -> inside t' m' -> inside (t ++ t') (m ++ m').
Proof. intros t m t' m' I. revert t' m'. induction I; intros t' m' J; cbn [app]; auto using in_plain, in_taken, in_joined, in_kept. Qed.
Lemma gap_words : forall g, gap g -> forall t ws, shell_words t ws -> shell_words (g ++ t) ws.
Proof.
  intros g G t ws H. assert (A : forall h, gap h -> gap (g ++ h)). { clear H. induction G as [|b u B G IH|c u N G IH]; intros h Gh; cbn [app]; auto; [constructor; auto|]. rewrite <- app_assoc. cbn [app]. apply gap_comment; auto. }
  destruct H as [h Gh|h c Gh N|h u w Gh W|h u w b t' ws Gh W B H]; [apply sw_none; auto|rewrite app_assoc; apply sw_comment; auto|rewrite app_assoc; apply sw_last; auto|rewrite app_assoc; apply sw_more; auto].
Qed.
(** The beginning of a word, possibly nothing yet. *)
Definition begins (t m : bytes) : Prop := pieces t m /\ (t = [] \/ exists b t', t = b :: t' /\ b <> "#").
Lemma begins_more : forall t m p v, begins t m -> piece p v -> hd "#" p <> "#" \/ t <> [] -> word (t ++ p) (m ++ v).
Proof.
  intros t m p v (P & S) Q H. split; [apply pieces_app; auto using pieces_one|]. destruct S as [->|(b & t' & -> & N)]; [|exists b, (t' ++ p); auto].
  destruct H as [H|H]; [|now destruct H]. cbn [app]. destruct p as [|b p]; cbn [hd] in H; [now destruct H|]. eauto.
Qed.
Lemma word_begins : forall t m, word t m -> begins t m.
Proof. intros t m (P & S). split; auto. Qed.
Definition meant (r : reading) (w t : bytes) (ws : list bytes) : Prop :=
  match r with
  | Before => w = [] -> shell_words t ws
  | Remark => forall c, ~ In newline c -> w = [] -> shell_words ("#" :: c ++ t) ws
  | InWord => forall x, word x w -> shell_words (x ++ t) ws
  | InSingle => forall x v q, begins x v -> ~ In "'" q -> w = v ++ q -> shell_words (x ++ "'" :: q ++ t) ws
  | InDouble => forall x v q m, begins x v -> inside q m -> w = v ++ m -> shell_words (x ++ x22 :: q ++ t) ws
  | Escaping => forall x, begins x w -> shell_words (x ++ "\" :: t) ws
  | EscapingDouble => forall x v q m, begins x v -> inside q m -> w = v ++ m -> shell_words (x ++ x22 :: q ++ "\" :: t) ws
  end.
Lemma word_step_meant : forall w b t ws r' w' d ws', word_step w b = (r', w', d) ->
  match d with Some x => ws = x :: ws' | None => ws = ws' end -> meant r' w' t ws' -> forall x, begins x w -> (x = [] -> b <> "#" /\ ~ In b blanks) -> shell_words (x ++ b :: t) ws.
Proof.
  intros w b t ws r' w' d ws' E D M x B F. unfold word_step in E. destruct (beqb b x22) eqn:B1; [apply beqb_eq in B1; subst b; injection E as <- <- <-|].
  { cbn in D. subst ws'. change (t) with ([] ++ t). apply (M x w [] []); auto; [constructor|now rewrite app_nil_r]. }
  destruct (beqb b "'") eqn:B2; [apply beqb_eq in B2; subst b; injection E as <- <- <-|].
  { cbn in D. subst ws'. change (t) with ([] ++ t). apply (M x w []); auto. now rewrite app_nil_r. }
  destruct (beqb b "\") eqn:B3; [apply beqb_eq in B3; subst b; injection E as <- <- <-|]. { cbn in D. subst ws'. apply (M x); auto. }
  destruct (blank b) eqn:B4; injection E as <- <- <-; cbn in D; subst ws.
  - destruct B as (P & [->|(c & x' & -> & N)]). { destruct (F eq_refl) as [_ F']. now apply blank_iff in B4. }
    change (c :: x') with ([] ++ c :: x'). rewrite <- app_assoc. apply sw_more; [constructor|split; eauto|now apply blank_iff|now apply M].
  - change (b :: t) with ([b] ++ t). rewrite app_assoc. apply M. apply begins_more; auto.
    + constructor; [now apply blank_not| | |]; now apply beqb_no'.
    + destruct x; [left; cbn [hd]; now apply F|right; discriminate].
Qed.
Lemma from_meant : forall t r w ws, shlex_from r w t = Some ws -> meant r w t ws.
Proof.
  induction t as [|b t IH]; intros r w ws H; cbn [shlex_from] in H.
  - destruct r; try discriminate; injection H as <-; cbn [meant].
    + intros _. apply sw_none. constructor.
    + intros c N _. rewrite app_nil_r. change ("#" :: c) with ([] ++ "#" :: c). apply sw_comment; auto. constructor.
    + intros x W. rewrite app_nil_r. change x with ([] ++ x). apply sw_last; auto. constructor.
  - destruct (shlex_step r w b) as [[r' w'] d] eqn:E. assert (X : exists ws', meant r' w' t ws' /\ match d with Some x => ws = x :: ws' | None => ws = ws' end).
    { destruct d as [d|]; [|eauto]. destruct (shlex_from r' w' t) as [ws'|] eqn:F; [|discriminate]. cbn [option_map] in H. injection H as <-. eauto. }
    destruct X as (ws' & M & D). clear H IH. destruct r; cbn [shlex_step] in E; cbn [meant].
    + intros ->. destruct (blank b) eqn:B; [injection E as <- <- <-; cbn in D; subst ws'|].
      { change (b :: t) with ([b] ++ t). apply gap_words; [constructor; [now apply blank_iff|constructor]|now apply M]. }
      destruct (beqb b "#") eqn:C; [apply beqb_eq in C; subst b; injection E as <- <- <-; cbn in D; subst ws'; apply (M []); auto|].
      change (b :: t) with ([] ++ b :: t). eapply word_step_meant; eauto; [split; [constructor|now left]|]. intros _. split; [now apply beqb_no'|now apply blank_not].
    + intros c N ->. destruct (beqb b x0a) eqn:B; injection E as <- <- <-; cbn in D; subst ws'.
      * apply beqb_eq in B. subst b. change ("#" :: c ++ x0a :: t) with ("#" :: c ++ [newline] ++ t). rewrite app_assoc. change ("#" :: (c ++ [newline]) ++ t) with (("#" :: c ++ [newline]) ++ t).
        apply gap_words; [apply gap_comment; auto; constructor|now apply M].
      * change (b :: t) with ([b] ++ t). rewrite app_assoc. apply M; auto. rewrite in_app_iff. cbn [In]. intros [I|[I|[]]]; [auto|]. apply beqb_no' in B. auto.
    + intros x W. pose proof W as (_ & c & x' & -> & _). eapply word_step_meant; eauto using word_begins. discriminate.
    + intros x v q B N ->. destruct (beqb b "'") eqn:C; injection E as <- <- <-; cbn in D; subst ws'.
      * apply beqb_eq in C. subst b. replace (x ++ "'" :: q ++ "'" :: t) with ((x ++ "'" :: q ++ ["'"]) ++ t) by (rewrite <- app_assoc; cbn [app]; now rewrite <- app_assoc).
        apply M. apply begins_more; auto; [apply pc_single; auto|]. left. discriminate.
      * replace (q ++ b :: t) with ((q ++ [b]) ++ t) by now rewrite <- app_assoc. apply (M x v); auto; [|now rewrite app_assoc]. rewrite in_app_iff. cbn [In]. intros [I|[I|[]]]; [auto|]. apply beqb_no' in C. auto.
    + intros x v q m B I ->. destruct (beqb b "\") eqn:C; [apply beqb_eq in C; subst b; injection E as <- <- <-; cbn in D; subst ws'; now apply (M x v q m)|].
      destruct (beqb b x22) eqn:C2; injection E as <- <- <-; cbn in D; subst ws'.
      * apply beqb_eq in C2. subst b. replace (x ++ x22 :: q ++ x22 :: t) with ((x ++ x22 :: q ++ [x22]) ++ t) by (rewrite <- app_assoc; cbn [app]; now rewrite <- app_assoc).
        apply M. apply begins_more; auto; [apply pc_double; auto|]. left. discriminate.
      * replace (q ++ b :: t) with ((q ++ [b]) ++ t) by now rewrite <- app_assoc. apply (M x v (q ++ [b]) (m ++ [b])); auto; [|now rewrite app_assoc]. apply inside_app; auto. constructor; try constructor; now apply beqb_no'.
    + intros x B. destruct (beqb b x0a) eqn:C; injection E as <- <- <-; cbn in D; subst ws'.
      * apply beqb_eq in C. subst b. replace (x ++ "\" :: x0a :: t) with ((x ++ ["\"; newline]) ++ t) by now rewrite <- app_assoc. apply M. rewrite <- (app_nil_r w). apply begins_more; auto; [apply pc_joined|]. left. discriminate.
      * replace (x ++ "\" :: b :: t) with ((x ++ ["\"; b]) ++ t) by now rewrite <- app_assoc. apply M. apply begins_more; auto; [apply pc_escaped; now apply beqb_no'|]. left. discriminate.
    + intros x v q m B I ->. destruct (_ || _ || _ || _) eqn:C; [injection E as <- <- <-; cbn in D; subst ws'|].
      { replace (q ++ "\" :: b :: t) with ((q ++ ["\"; b]) ++ t) by now rewrite <- app_assoc. apply (M x v (q ++ ["\"; b]) (m ++ [b])); auto; [|now rewrite app_assoc]. apply inside_app; auto. apply in_taken; [now apply touchy_iff|constructor]. }
      destruct (beqb b x0a) eqn:C2; injection E as <- <- <-; cbn in D; subst ws'.
      * apply beqb_eq in C2. subst b. replace (q ++ "\" :: x0a :: t) with ((q ++ ["\"; newline]) ++ t) by now rewrite <- app_assoc. apply (M x v (q ++ ["\"; newline]) (m ++ [])); auto; [|now rewrite app_nil_r]. apply inside_app; auto. apply in_joined. constructor.
      * replace (q ++ "\" :: b :: t) with ((q ++ ["\"; b]) ++ t) by now rewrite <- app_assoc. apply (M x v (q ++ ["\"; b]) (m ++ ["\"; b])); auto; [|now rewrite app_assoc]. apply inside_app; auto. apply in_kept; [|now apply beqb_no'|constructor]. intro T. apply touchy_iff in T. congruence.
Qed.
Lemma split_iff : forall t ws, shlex_split t = Some ws <-> shell_words t ws.
Proof. intros t ws. split; [|apply words_read]. intro H. now apply from_meant in H; cbn [meant] in H; auto. Qed.

(** ** Every list of words can be written *)
Definition quoted_char (c : N) : bytes := if (c =? 39)%N then ["\"; "'"] else "'" :: utf8_encode c ++ ["'"].
Definition quoted (w : list N) : bytes := ["'"; "'"] ++ flat_map quoted_char w.
Lemma encode_quote : forall c, scalar c -> c <> 39%N -> ~ In "'" (utf8_encode c).
Proof.
  intros c S N I. unfold utf8_encode in I. unfold scalar in S. assert (H : forall n, (n < 256)%N -> bN n = "'" -> n = 39%N). { intros n L E. rewrite <- (bN_to_N n L), E. reflexivity. }
  assert (M1 : (c mod 64 < 64)%N) by (apply N.mod_lt; lia). assert (D1 : (c = 64 * (c / 64) + c mod 64)%N) by (apply N.div_mod; lia).
  assert (M2 : (c / 64 mod 64 < 64)%N) by (apply N.mod_lt; lia).
  assert (D2 : (c / 64 = 64 * (c / 4096) + c / 64 mod 64)%N). { replace 4096%N with (64 * 64)%N by lia. rewrite <- N.div_div by lia. apply N.div_mod. lia. }
  assert (M3 : (c / 4096 mod 64 < 64)%N) by (apply N.mod_lt; lia).
  assert (D3 : (c / 4096 = 64 * (c / 262144) + c / 4096 mod 64)%N). { replace 262144%N with (4096 * 64)%N by lia. rewrite <- N.div_div by lia. apply N.div_mod. lia. }
  set (r1 := (c mod 64)%N) in *. set (r2 := (c / 64 mod 64)%N) in *. set (r3 := (c / 4096 mod 64)%N) in *.
  set (q1 := (c / 64)%N) in *. set (q2 := (c / 4096)%N) in *. set (q3 := (c / 262144)%N) in *. clearbody r1 r2 r3 q1 q2 q3.
  destruct (N.ltb_spec c 0x80); [|destruct (N.ltb_spec c 0x800); [|destruct (N.ltb_spec c 0x10000)]]; cbn [In] in I;
    repeat (destruct I as [I|I]; [apply H in I; lia|]); exact I.
Qed.
Lemma quoted_pieces : forall cs, Forall scalar cs -> pieces (flat_map quoted_char cs) (flat_map utf8_encode cs).
Proof.
  induction cs as [|c cs IH]; intro F; cbn [flat_map]; [constructor|]. apply Forall_cons_iff in F. destruct F as [S F]. constructor; [|auto]. unfold quoted_char. destruct (N.eqb_spec c 39) as [->|N].
  - apply pc_escaped. discriminate.
  - apply pc_single. now apply encode_quote.
Qed.
Lemma quoted_word : forall cs, Forall scalar cs -> word (quoted cs) (flat_map utf8_encode cs).
Proof.
  intros cs F. split; [|exists "'", ("'" :: flat_map quoted_char cs); split; [reflexivity|discriminate]]. change (flat_map utf8_encode cs) with ([] ++ flat_map utf8_encode cs). unfold quoted. constructor; [|now apply quoted_pieces]. apply (pc_single []). auto.
Qed.
Lemma utf8_app : forall s t, utf8_text s -> utf8_text t -> utf8_text (s ++ t).
Proof. intros s t (cs & F & ->) (ds & G & ->). exists (cs ++ ds). split; [now apply Forall_app|]. now rewrite flat_map_app. Qed.
Lemma utf8_known : forall s, utf8_valid s = true -> utf8_text s.
Proof. intro s. apply utf8_valid_iff. Qed.
Lemma quoted_utf8 : forall cs, Forall scalar cs -> utf8_text (quoted cs).
Proof.
  intros cs F. unfold quoted. apply utf8_app; [now apply utf8_known|]. induction F as [|c cs S F IH]; cbn [flat_map]; [now apply utf8_known|]. apply utf8_app; auto. unfold quoted_char. destruct (c =? 39)%N; [now apply utf8_known|].
  change ("'" :: utf8_encode c ++ ["'"]) with (["'"] ++ utf8_encode c ++ ["'"]). apply utf8_app; [now apply utf8_known|]. apply utf8_app; [|now apply utf8_known]. exists [c]. split; auto. cbn [flat_map]. now rewrite app_nil_r.
Qed.
Lemma words_written : forall ws, Forall utf8_text ws -> exists t, utf8_text t /\ shell_words t ws.
Proof.
  induction ws as [|w ws IH]; intro F. { exists []. split; [now apply utf8_known|apply sw_none; constructor]. }
  apply Forall_cons_iff in F. destruct F as [(cs & S & ->) F]. destruct (IH F) as (t & U & W). exists (quoted cs ++ " " :: t). split.
  - apply utf8_app; [now apply quoted_utf8|]. change (" " :: t) with ([" "] ++ t). apply utf8_app; auto. now apply utf8_known.
  - change (quoted cs ++ " " :: t) with ([] ++ quoted cs ++ " " :: t). apply sw_more; auto; [constructor|now apply quoted_word|now left].
Qed.
