(** Which editor [select_editor] selects (C75). *)
From Verif.Model Require Import Cli.
From Verif.Spec Require Import SpecCli.
From Verif.Proofs Require Import BytesFacts Utf8Facts ShellFacts.
Open Scope byte_scope.

Section Editor.
  Context (O : os).

  Lemma fallback_iff : forall p, fallback_editor O = Some p <-> default_editor O p.
  Proof.
    intro p. unfold fallback_editor, default_editor, known_editors. split.
    - destruct (os_which O (lit "vim")) as [q|] eqn:A; [intro H; injection H as <-; exists [], (lit "vim"), [lit "nano"; lit "vi"]; auto|].
      destruct (os_which O (lit "nano")) as [q|] eqn:B; [intro H; injection H as <-; exists [lit "vim"], (lit "nano"), [lit "vi"]; auto|]. intro H. exists [lit "vim"; lit "nano"], (lit "vi"), []. auto.
    - intros (before & name & after & E & F & W). destruct before as [|a before]; cbn [app] in E; injection E as <- E; [now rewrite W|]. apply Forall_cons_iff in F. destruct F as [-> F].
      destruct before as [|a before]; cbn [app] in E; injection E as <- E; [now rewrite W|]. apply Forall_cons_iff in F. destruct F as [-> F].
      destruct before as [|a before]; cbn [app] in E; injection E as <- E; [exact W|]. now destruct before.
  Qed.
  Lemma select_iff : forall e, select_editor O = Ok e <-> editor_line O (fst e :: snd e).
  Proof.
    intros [w ws]. cbn [fst snd]. unfold select_editor. split.
    - destruct (os_editor_var O) as [v|] eqn:V.
      + destruct (utf8_valid v) eqn:U; [|discriminate]. destruct (shlex_split v) as [[|x l]|] eqn:S; try discriminate. intro H. injection H as -> ->. apply split_iff in S. apply utf8_valid_iff in U. eapply el_named; eauto. discriminate.
      + destruct (fallback_editor O) as [p|] eqn:F; [|discriminate]. destruct (utf8_valid p) eqn:U; [|discriminate]. intro H. injection H as <- <-. apply el_default; auto; [now apply fallback_iff|now apply utf8_valid_iff].
    - intro H. inversion H as [v l V U S N E|p V D U E]; subst; rewrite V.
      + rewrite (proj2 (utf8_valid_iff v) U), (proj2 (split_iff _ _) S). reflexivity.
      + rewrite (proj2 (fallback_iff _) D), (proj2 (utf8_valid_iff _) U). reflexivity.
  Qed.
  Lemma line_nonempty : forall ws, editor_line O ws -> exists e, ws = fst e :: snd e.
  Proof. intros ws [v l V U S N|p V D U]; [destruct l as [|w l]; [now destruct N|exists (w, l); reflexivity]|exists (p, []); reflexivity]. Qed.
  Lemma select_attempts : forall e, select_editor O = Ok e -> attempts O (os_editor O (editor_command O e)).
  Proof. intros e H. exists (fst e :: snd e). split; [now apply select_iff|reflexivity]. Qed.
  Lemma attempts_select : forall l, attempts O l -> exists e, select_editor O = Ok e /\ l = os_editor O (editor_command O e).
  Proof. intros l (ws & L & ->). destruct (line_nonempty _ L) as (e & ->). exists e. split; [now apply select_iff|reflexivity]. Qed.
  Lemma attempts_same : forall l l', attempts O l -> attempts O l' -> l = l'.
  Proof. intros l l' A B. apply attempts_select in A, B. destruct A as (e & A & ->), B as (e' & B & ->). congruence. Qed.
  Lemma select_aborts : select_editor O = Panic <-> (exists v, os_editor_var O = Some v /\ utf8_text v /\ shell_words v []) \/ (os_editor_var O = None /\ exists p, default_editor O p /\ ~ utf8_text p).
  Proof.
    unfold select_editor. split.
    - destruct (os_editor_var O) as [v|] eqn:V.
      + destruct (utf8_valid v) eqn:U; [|discriminate]. destruct (shlex_split v) as [[|x l]|] eqn:S; try discriminate. intros _. left. exists v. repeat split; [now apply utf8_valid_iff|now apply split_iff].
      + destruct (fallback_editor O) as [p|] eqn:F; [|discriminate]. destruct (utf8_valid p) eqn:U; [discriminate|]. intros _. right. split; auto. exists p. split; [now apply fallback_iff|]. intro T. apply utf8_valid_iff in T. congruence.
    - intros [(v & V & U & S)|(V & p & D & U)]; rewrite V.
      + now rewrite (proj2 (utf8_valid_iff v) U), (proj2 (split_iff _ _) S).
      + rewrite (proj2 (fallback_iff p) D). destruct (utf8_valid p) eqn:T; auto. now apply utf8_valid_iff in T.
  Qed.
End Editor.
