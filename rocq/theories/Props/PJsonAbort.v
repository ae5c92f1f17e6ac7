(** Aborting commands on JSON files: C60 and C81 without assumptions about JSON. *)
From Verif.Model Require Import Cli Main Json Chrono.
From Verif.Spec Require Import SpecAbort SpecArgs.
From Verif.Proofs Require Import Utf8Facts ValueFacts JsonTotal JsonHeld.
From Verif.Props Require Import PMap PFormat ExWorld ExCodec PDocument PCli PAbort PArgs PMain.
Open Scope byte_scope.

(** [json_codec] (Model/Chrono.v) without the check that the text is UTF-8, which the code does not have (its strings are UTF-8):
    serde_json as called in file/format/json/mod.rs:18-28. *)
Definition plain_json (cd : codec) : codec :=
  {| cd_write := fun f es => match f with Json => json_value 0 (FMap es) | _ => cd_write cd f es end;
     cd_read := fun f s => match f with Json => json_read s | _ => cd_read cd f s end;
     cd_time := time_read |}.
Lemma plain_reads : forall cd s, cd_read (plain_json cd) Json s = json_read s.
Proof. intros cd s. unfold plain_json, cd_read. reflexivity. Qed.
Lemma plain_writes : forall cd es, cd_write (plain_json cd) Json es = json_value 0 (FMap es).
Proof. intros cd es. unfold plain_json, cd_write. reflexivity. Qed.
(** The two differ only where the check fails. *)
Lemma plain_agrees : forall cd s es, json_read s = cd_read (json_codec cd) Json s
  /\ (forall t, cd_write (json_codec cd) Json es = Ok t -> cd_write (plain_json cd) Json es = Ok t)
  /\ (forall t, utf8_text t -> cd_write (plain_json cd) Json es = Ok t -> cd_write (json_codec cd) Json es = Ok t).
Proof.
  intros cd s es. split; [unfold json_codec, with_json, cd_read; reflexivity|]. assert (X : cd_write (json_codec cd) Json es = json_write es) by (unfold json_codec, with_json, cd_write; reflexivity). rewrite X, plain_writes. unfold json_write. split.
  - intros t H. apply bind_ok in H. destruct H as (t' & -> & H). destruct (utf8_valid t'); congruence.
  - intros t U ->. cbn [bind]. apply utf8_valid_iff in U. now rewrite U.
Qed.

(** The laws, of YAML and TOML only. *)
Definition other_parsers (cd : codec) : Prop :=
  forall f s, f <> Json -> utf8_text s -> cd_read cd f s <> Panic /\ forall es, cd_read cd f s = Ok es -> held f (FMap es).
Definition other_printers (cd : codec) : Prop := forall f es, f <> Json -> expressible f (FMap es) -> exists t, cd_write cd f es = Ok t.

(** The JSON reader reports errors and delivers values of its type; the JSON printer prints what it is given. *)
Theorem C60_json_reads : forall s, utf8_text s -> json_read s <> Panic /\ forall es, json_read s = Ok es -> held Json (FMap es).
Proof. intros s U. split; [|intros es R; now apply (json_held s)]. destruct (json_total s) as [[m ->]| ->]; discriminate. Qed.
Print Assumptions C60_json_reads.
Theorem C60_json_prints : forall es, expressible Json (FMap es) -> exists t, json_value 0 (FMap es) = Ok t.
Proof. intros es X. exact (value_prints (FMap es) 0 X). Qed.
Print Assumptions C60_json_prints.
Lemma plain_parser_law : forall cd, other_parsers cd -> parser_law (plain_json cd).
Proof.
  intros cd L f s U. destruct f; [apply (L Yaml); auto; discriminate| |apply (L Toml); auto; discriminate]. rewrite plain_reads. exact (C60_json_reads s U).
Qed.
Lemma plain_printer_law : forall cd, other_printers cd -> printer_law (plain_json cd).
Proof.
  intros cd L f es X. destruct f; [apply (L Yaml); auto; discriminate| |apply (L Toml); auto; discriminate]. rewrite plain_writes. exact (C60_json_prints es X).
Qed.
(** The causes of C60, with nothing assumed of JSON. *)
Theorem C60_json_partial : forall re tp ag cd O c s s', age_law ag -> other_parsers cd -> other_printers cd -> accepted c ->
  run_command re tp ag (plain_json cd) O c s = (s', Panic) -> aborts re ag (plain_json cd) O c (sy_file s).
Proof. intros re tp ag cd O c s s' AL P W A H. apply (C60_causes_partial re tp ag (plain_json cd) O c s s' AL (plain_parser_law cd P) (plain_printer_law cd W) A H). Qed.
Print Assumptions C60_json_partial.
Example C60_json_witness : age_law toy_age /\ other_parsers (strict_codec ex_codec) /\ other_printers (strict_codec ex_codec) /\ accepted ex_edit
  /\ snd (run_command ex_re ex_tape toy_age (plain_json (strict_codec ex_codec)) ex_blank_os ex_edit ex_start) = Panic.
Proof.
  split; [exact toy_age_law|]. split; [intros f s _; apply strict_parser_law|]. split; [intros f es _; apply strict_printer_law|]. split; [constructor|]. by_vm.
Qed.
(** A text that is read, and one printed. *)
Definition abort_doc : fmap := [(FStr (lit "a"), FSeq [FNum (NInt (-1)); FNull; FBool true]); (FStr (lit "b"), FMap [])].
Definition abort_text : bytes := Eval vm_compute in match json_value 0 (FMap abort_doc) with Ok t => t | _ => [] end.
Example C60_json_reads_witness : utf8_text abort_text /\ json_read abort_text = Ok abort_doc.
Proof. split; [apply utf8_valid_iff|]; by_vm. Qed.
Example C60_json_prints_witness : expressible Json (FMap abort_doc) /\ json_value 0 (FMap abort_doc) = Ok abort_text.
Proof. split; [|by_vm]. cbn. repeat split; eauto; try discriminate; vm_compute; discriminate. Qed.

(** The exit status 101, likewise. *)
Theorem C81_json_abort : forall re tp ag cd O ts s s', age_law ag -> other_parsers cd -> other_printers cd -> process re tp ag (plain_json cd) O ts s = (s', Exited 101) ->
  (exists ws v ts' is k, ts = ws ++ ts' /\ names ws v /\ spells v ts' is /\ In k (values AKms is) /\ utf8_text k /\ parse_aws_key k = Panic)
  \/ exists c, line_says re ag ts c /\ aborts re ag (plain_json cd) O c (sy_file s).
Proof. intros re tp ag cd O ts s s' AL P W H. apply (C81_abort re tp ag (plain_json cd) O ts s s' AL (plain_parser_law cd P) (plain_printer_law cd W) H). Qed.
Print Assumptions C81_json_abort.
Example C81_json_witness : snd (process ex_re ex_tape toy_age (plain_json (strict_codec ex_codec)) (ex_os []) line_c ex_start) = Exited 101
  /\ snd (process ex_re ex_tape toy_age (plain_json (strict_codec ex_codec)) (ex_os []) line_e ex_start) = Exited 101.
Proof. split; by_vm. Qed.
