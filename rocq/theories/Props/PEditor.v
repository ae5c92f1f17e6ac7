(** C75: the editor that [rops edit] starts. *)
From Verif.Model Require Import Cli.
From Verif.Spec Require Import SpecAbort.
From Verif.Proofs Require Import BytesFacts Utf8Facts ShellFacts EditorFacts CliRun.
From Verif.Props Require Import ExWorld PFile PDocument PCli.
Open Scope byte_scope.

(** The text of EDITOR is taken apart as by a shell: these words and no other, and none at all if it has no reading. *)
Theorem C75_words : forall t ws, shlex_split t = Some ws <-> shell_words t ws.
Proof. exact split_iff. Qed.
Print Assumptions C75_words.
(** A text has at most one reading; every list of words has a text. *)
Theorem C75_one_reading : forall t ws ws', shell_words t ws -> shell_words t ws' -> ws = ws'.
Proof. intros t ws ws' A B. apply split_iff in A, B. congruence. Qed.
Print Assumptions C75_one_reading.
Theorem C75_every : forall ws, Forall utf8_text ws -> exists v, utf8_text v /\ shell_words v ws.
Proof. exact words_written. Qed.
Print Assumptions C75_every.

(** What is selected, and when the program aborts instead (C60). *)
Theorem C75_selected : forall O w ws, select_editor O = Ok (w, ws) <-> editor_line O (w :: ws).
Proof. intros O w ws. apply (select_iff O (w, ws)). Qed.
Print Assumptions C75_selected.
Theorem C75_aborts : forall O, select_editor O = Panic
  <-> (exists v, os_editor_var O = Some v /\ utf8_text v /\ shell_words v []) \/ (os_editor_var O = None /\ exists p, default_editor O p /\ ~ utf8_text p).
Proof. exact select_aborts. Qed.
Print Assumptions C75_aborts.

(** Only the selected program is started, with its arguments and the temporary file: what any other program, or the same one with other
    arguments, would do makes no difference to any command. *)
Definition with_editor (O : os) (ed : list bytes -> list (node -> edited)) : os :=
  {| os_stdin := os_stdin O; os_cwd := os_cwd O; os_config_var := os_config_var O; os_editor_var := os_editor_var O; os_which := os_which O;
     os_editor := ed; os_temp := os_temp O; os_io := os_io O; os_env := os_env O |}.
Theorem C75_started : forall re tp ag cd O ed c s, (forall ws, editor_line O ws -> ed (ws ++ [os_temp O]) = os_editor O (ws ++ [os_temp O])) ->
  run_command re tp ag cd (with_editor O ed) c s = run_command re tp ag cd O c s.
Proof.
  intros re tp ag cd O ed c s H. destruct c as [a|a|a|a|a|a]; try reflexivity.
  change (run_command re tp ag cd (with_editor O ed) (Edit a)) with (do* _ := retrieve re ag cd O (in_config a) in run_edit re tp ag cd (with_editor O ed) a).
  change (run_command re tp ag cd O (Edit a)) with (do* _ := retrieve re ag cd O (in_config a) in run_edit re tp ag cd O a).
  assert (E : forall e, select_editor O = Ok e -> ed (editor_command O e) = os_editor O (editor_command O e)). { intros e S. apply select_iff in S. exact (H _ S). }
  apply chain_same. intros _ s1 _. unfold run_edit. apply chain_same. intros f s2 _. apply chain_same. intros x s3 _. apply chain_same. intros ef s4 _. apply chain_same. intros d s5 _. apply chain_same. intros _ s6 _.
  match goal with |- chain (with_cleanup _ _ ?p) ?k s6 = chain (with_cleanup _ _ ?q) ?k' s6 => assert (X : p s6 = q s6) end.
  { apply chain_same. intros t s7 _. apply chain_same. intros _ s8 _. apply chain_same. intros e s9 S. apply lift_ok in S. destruct S as [_ S]. change (editor_command (with_editor O ed) e) with (editor_command O e).
    change (os_editor (with_editor O ed)) with ed. now rewrite (E e S). }
  unfold chain at 1 5. unfold with_cleanup. rewrite X. reflexivity.
Qed.
Print Assumptions C75_started.

(** A line with quotes, a backslash and a comment; and the words. *)
Definition quoting_text : bytes := lit "'my editor' -c ""set \""x\n\"""" a\ b'' ""'"" # the usual one".
Example C75_witness : shell_words quoting_text [lit "my editor"; lit "-c"; lit "set ""x\n"""; lit "a b"; lit "'"]
  /\ (forall ws, ~ shell_words (lit "vi 'x") ws) /\ shell_words (lit " # vi") [].
Proof.
  split; [apply split_iff; reflexivity|]. split; [|apply split_iff; reflexivity]. intros ws H. apply split_iff in H. discriminate H.
Qed.
(** The editor of the example is started with its argument and makes its attempts; with a program that is not there, nothing happens. *)
Example C75_started_witness : editor_line (ex_os ex_attempts) ex_editor
  /\ (forall ws, editor_line (ex_os ex_attempts) ws -> (fun l => if list_eq_dec (list_eq_dec Byte.byte_eq_dec) l (ex_editor ++ [ex_temp]) then ex_attempts else ex_gives_up) (ws ++ [ex_temp]) = os_editor (ex_os ex_attempts) (ws ++ [ex_temp]))
  /\ (snd (ex_run ex_attempts ex_edit), file_after (ex_run ex_attempts ex_edit) ex_path) = (Ok tt, ex_edited) /\ ex_edited <> small_text.
Proof.
  assert (L : editor_line (ex_os ex_attempts) ex_editor). { eapply el_named; [reflexivity|now apply utf8_known| |discriminate]. apply split_iff. reflexivity. }
  split; [exact L|]. split.
  - intros ws W. assert (ws = ex_editor) as ->; [|reflexivity]. inversion W as [v l V U S N E|p V]; [|discriminate V]. inversion L as [v' l' V' U' S' N' E'|p' V' D' U' E']. rewrite V in V'. injection V' as <-. subst l l'. exact (C75_one_reading _ _ _ S S').
  - split; [by_vm|]. vm_compute. discriminate.
Qed.
(** Without the variable the second choice is taken if the first is not there. *)
Definition ex_nano : os :=
  {| os_stdin := None; os_cwd := Some []; os_config_var := None; os_editor_var := None;
     os_which := fun n => if bytes_eqb n (lit "vim") then None else Some (lit "/bin/" ++ n);
     os_editor := fun _ => ex_attempts; os_temp := ex_temp; os_io := fun _ _ => None; os_env := ex_here |}.
Example C75_default_witness : editor_line ex_nano [lit "/bin/nano"].
Proof. apply el_default; [reflexivity| |now apply utf8_known]. exists [lit "vim"], (lit "nano"), [lit "vi"]. repeat split. now constructor. Qed.
