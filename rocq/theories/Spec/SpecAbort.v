(** Specification vocabulary for aborting commands (C60). *)
From Verif.Model Require Import Cli.
From Verif.Spec Require Export SpecCli.
Open Scope byte_scope.

(** What the value types of the parsers can hold (as [fmt_value], without distinct keys): text is UTF-8; integers of 64 bits; JSON has
    no NaN and no infinity; TOML has no null; only TOML has dates; only YAML has tags and keys that are not strings. *)
Definition whole_number (f : fmt) (z : Z) : Prop := match f with Toml => (- 2 ^ 63 <= z < 2 ^ 63)%Z | _ => (- 2 ^ 63 <= z < 2 ^ 64)%Z end.
Fixpoint held (f : fmt) (v : fvalue) : Prop :=
  match v with
  | FMap m => each (fun kv => ((exists s, fst kv = FStr s) \/ (f = Yaml /\ held f (fst kv))) /\ held f (snd kv)) m
  | FSeq l => each (held f) l
  | FStr s => utf8_text s
  | FBool _ => True
  | FNum (NInt z) => whole_number f z
  | FNum (NFlt x) => f64_canonical x = true /\ (f = Json -> f64_finite x = true)
  | FNull => f <> Toml
  | FTagged _ v' => f = Yaml /\ held f v'
  | FDate s => f = Toml /\ utf8_text s
  end.
(** The parsers report errors, and deliver values of their types. *)
Definition parser_law (cd : codec) : Prop :=
  forall f s, utf8_text s -> cd_read cd f s <> Panic /\ forall es, cd_read cd f s = Ok es -> held f (FMap es).

(** What the printers are given: the same, without tags. *)
Fixpoint expressible (f : fmt) (v : fvalue) : Prop :=
  match v with
  | FMap m => each (fun kv => ((exists s, fst kv = FStr s) \/ (f = Yaml /\ expressible f (fst kv))) /\ expressible f (snd kv)) m
  | FSeq l => each (expressible f) l
  | FStr _ | FBool _ => True
  | FNum (NInt z) => whole_number f z
  | FNum (NFlt x) => f = Json -> f64_finite x = true
  | FNull => f <> Toml
  | FTagged _ _ => False
  | FDate _ => f = Toml
  end.
(** The printers print it. *)
Definition printer_law (cd : codec) : Prop := forall f es, expressible f (FMap es) -> exists t, cd_write cd f es = Ok t.

(** What the command line parser lets through. *)
Inductive accepted : command -> Prop :=
| acc_encrypt l c : parse_encrypt l = Some c -> accepted c
| acc_decrypt i p c : parse_place Decrypt i p = Some c -> accepted c
| acc_refresh i p c : parse_place Refresh i p = Some c -> accepted c
| acc_edit a : accepted (Edit a)
| acc_add a : accepted (AddKeys a)
| acc_remove a : accepted (RemoveKeys a).

(** The --format option. *)
Definition format_option (c : command) : option fmt :=
  match c with
  | Encrypt a => in_format (ea_input a)
  | Decrypt a | Refresh a => in_format (pl_input a)
  | Edit a => in_format a
  | AddKeys a | RemoveKeys a => ka_format a
  end.

Section Aborts.
  Context (re : regex_engine) (ag : age_crate) (cd : codec) (O : os) (c : command) (fs : bytes -> node).

  (** The text the command is given, and the encrypted file it holds. *)
  Definition given_text (f : fmt) (t : bytes) : Prop :=
    only_source O fs (input_file c) t /\ get_format (input_file c) (format_option c) = Ok f.
  Definition given_file (f : fmt) (ef : efile) : Prop := exists t, given_text f t /\ read_efile (re_valid re) ag cd f t = Ok ef.

  (** The causes of an abort. *)
  Inductive aborts : Prop :=
  (* the name of the file decides on the format, and its extension is not UTF-8 *)
  | ab_extension p e : input_file c = Some p -> format_option c = None -> has_extension p e -> ~ utf8_text e -> aborts
  (* the result is printed, and that fails *)
  | ab_print h t : output_file O c = None -> os_io O h (Printed t) <> None -> aborts
  (* the variable EDITOR has no word *)
  | ab_editor a v : c = Edit a -> os_editor_var O = Some v -> shell_words v [] -> aborts
  (* there is no such variable, and the path of the editor is not UTF-8 *)
  | ab_default a p : c = Edit a -> os_editor_var O = None -> default_editor O p -> ~ utf8_text p -> aborts
  (* the configuration has a malformed key id (C44) *)
  | ab_config p s es ks k : config_source O fs (config_path c) (Some p) -> fs p = Content s -> cd_read cd Toml s = Ok es ->
      at_path (FMap es) ks (FStr k) -> parse_aws_key k = Panic -> aborts
  (* the file has a malformed ARN (C44) or encrypted value (C03) *)
  | ab_text f t es ks k : given_text f t -> cd_read cd f t = Ok es -> at_path (FMap es) ks (FStr k) ->
      parse_arn k = Panic \/ parse_evalue k = Panic -> aborts
  (* an age entry is encrypted with a passphrase *)
  | ab_passphrase f ef u i : given_file f ef -> In u (rc_age (md_recipients (fl_meta ef))) -> ag_public ag i = u_key u ->
      ag_open ag i (u_enc u) = AgePassphrase -> aborts
  (* the key management service answers without an answer *)
  | ab_decrypt_reply req b : e_kms_decrypt (os_env O) req b = KmsEmpty -> aborts
  | ab_encrypt_reply n req b : e_kms_encrypt (os_env O) n req b = KmsEmpty -> aborts
  (* the file holds an authentic MAC that is not UTF-8 *)
  | ab_mac f ef mac : given_file f ef -> authentic_mac ag (os_env O) ef mac -> ~ utf8_text mac -> aborts
  (* a JSON file holds NaN or an infinity *)
  | ab_float ef dm ks v : given_file Json ef -> content re ag (os_env O) Json ef dm -> In (ks, v) (map_values dm) -> non_finite v -> aborts.
End Aborts.
