(** Aborting commands: C60. *)
From Verif.Model Require Import Cli.
From Verif.Spec Require Import SpecAbort.
From Verif.Proofs Require Import BytesFacts Utf8Facts ValueFacts FormatFacts CliPath CliRun CliAbort.
From Verif.Props Require Import PMap PFormat ExWorld ExCodec PDocument PCli.
Open Scope byte_scope.

(** Full statement: no command aborts (refuted: C60_editor_refuted, C60_output_refuted).  What holds: every abort has one of eleven causes,
    for every command line clap lets through.  Assumed: the parsers report errors and deliver values of their types, the printers
    print what they are given, and age opens what it wrapped. *)
Theorem C60_causes_partial : forall re tp ag cd O c s s', age_law ag -> parser_law cd -> printer_law cd -> accepted c ->
  run_command re tp ag cd O c s = (s', Panic) -> aborts re ag cd O c (sy_file s).
Proof. intros re tp ag cd O c s s' AL PL WL A H. eapply run_panic; eauto. Qed.
Print Assumptions C60_causes_partial.

(** A file name whose extension is not UTF-8 is enough (cli/common.rs:49-50). *)
Theorem C60_extension_refuted : forall p e, has_extension p e -> ~ utf8_text e -> get_format (Some p) None = Panic.
Proof.
  intros p e H U. unfold get_format. apply extension_has in H. rewrite H. destruct (utf8_valid e) eqn:V; auto. apply utf8_valid_iff in V. contradiction.
Qed.
Print Assumptions C60_extension_refuted.
Example C60_extension_witness : has_extension (lit "s.y" ++ [xff]) (lit "y" ++ [xff]) /\ ~ utf8_text (lit "y" ++ [xff]).
Proof.
  split; [apply extension_has; by_vm|]. intro U. apply utf8_valid_iff in U. vm_compute in U. discriminate U.
Qed.

(** ** A codec that satisfies the laws: the codec of the examples, refusing what its parsers can not hold. *)
Definition whole_numberb (f : fmt) (z : Z) : bool := match f with Toml => ((- 2 ^ 63 <=? z) && (z <? 2 ^ 63))%Z | _ => ((- 2 ^ 63 <=? z) && (z <? 2 ^ 64))%Z end.
Definition is_fmt (f g : fmt) : bool := match f, g with Yaml, Yaml | Json, Json | Toml, Toml => true | _, _ => false end.
Fixpoint heldb (f : fmt) (v : fvalue) : bool :=
  match v with
  | FMap m => forallb (fun kv => (match fst kv with FStr _ => true | _ => false end || (is_fmt f Yaml && heldb f (fst kv))) && heldb f (snd kv)) m
  | FSeq l => forallb (heldb f) l
  | FStr s => utf8_valid s
  | FBool _ => true
  | FNum (NInt z) => whole_numberb f z
  | FNum (NFlt x) => f64_canonical x && (negb (is_fmt f Json) || f64_finite x)
  | FNull => negb (is_fmt f Toml)
  | FTagged _ v' => is_fmt f Yaml && heldb f v'
  | FDate s => is_fmt f Toml && utf8_valid s
  end.
Lemma is_fmt_eq : forall f g, is_fmt f g = true -> f = g.
Proof. intros [] []; auto; discriminate. Qed.
Lemma heldb_held : forall f v, heldb f v = true -> held f v.
Proof.
  intro f. induction v as [m IH|l IH|s|b|x| |tg v IH|s] using fvalue_ind_all; cbn [heldb held]; auto.
  - intro H. rewrite forallb_forall in H. rewrite Forall_forall in IH. apply each_intro. intros kv I. specialize (H _ I). destruct (IH _ I) as [I1 I2]. apply andb_true_iff in H. destruct H as [H H2]. split; auto. apply orb_true_iff in H. destruct H as [H|H].
    + left. destruct (fst kv); try discriminate. eauto.
    + right. apply andb_true_iff in H. destruct H as [H H']. split; auto. now apply is_fmt_eq.
  - intro H. rewrite forallb_forall in H. rewrite Forall_forall in IH. apply each_intro. auto.
  - apply utf8_valid_iff.
  - destruct x as [z|x]; cbv beta iota.
    + unfold whole_numberb, whole_number. destruct f; intro H; apply andb_true_iff in H; destruct H as [H1 H2]; apply Z.leb_le in H1; apply Z.ltb_lt in H2; auto.
    + intro H. apply andb_true_iff in H. destruct H as [H1 H2]. split; auto. intros ->. exact H2.
  - intros H ->. discriminate H.
  - intro H. apply andb_true_iff in H. destruct H as [H1 H2]. split; auto. now apply is_fmt_eq.
  - intro H. apply andb_true_iff in H. destruct H as [H1 H2]. split; [now apply is_fmt_eq|now apply utf8_valid_iff].
Qed.
Definition strict_codec (cd : codec) : codec :=
  {| cd_write := fun f es => match cd_write cd f es with Ok s => Ok s | _ => Ok [] end;
     cd_read := fun f s => match cd_read cd f s with Ok es => if heldb f (FMap es) then Ok es else Err EInvalidField | _ => Err EInvalidField end;
     cd_time := cd_time cd |}.
Lemma strict_parser_law : forall cd, parser_law (strict_codec cd).
Proof.
  intros cd f s _. unfold strict_codec. cbn [cd_read]. destruct (cd_read cd f s) as [es|e|]; [|split; discriminate|split; discriminate]. destruct (heldb f (FMap es)) eqn:H; [|split; discriminate].
  split; [discriminate|]. intros es' E. injection E as <-. now apply heldb_held.
Qed.
Lemma strict_printer_law : forall cd, printer_law (strict_codec cd).
Proof. intros cd f es _. unfold strict_codec. cbn [cd_write]. destruct (cd_write cd f es); eauto. Qed.

Example C60_causes_witness : age_law toy_age /\ parser_law (strict_codec ex_codec) /\ printer_law (strict_codec ex_codec) /\ accepted ex_edit
  /\ snd (run_command ex_re ex_tape toy_age (strict_codec ex_codec) ex_blank_os ex_edit ex_start) = Panic
  /\ snd (run_command ex_re ex_tape toy_age (strict_codec ex_codec) (ex_os []) ex_add ex_start) = Ok tt.
Proof.
  split; [exact toy_age_law|]. split; [apply strict_parser_law|]. split; [apply strict_printer_law|]. split; [constructor|]. split; by_vm.
Qed.
