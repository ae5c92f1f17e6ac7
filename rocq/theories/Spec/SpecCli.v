(** Specification vocabulary for the command line. *)
From Verif.Model Require Import Cli.
From Verif.Spec Require Export SpecDocument SpecShell.
Open Scope byte_scope.

(** * Format names (C34) *)

(** Equal up to the case of ASCII letters. *)
Definition same_letter (x y : byte) : Prop :=
  x = y \/ exists k, (k < 26)%N /\ ((Byte.to_N x = 65 + k /\ Byte.to_N y = 97 + k) \/ (Byte.to_N x = 97 + k /\ Byte.to_N y = 65 + k))%N.
Definition same_word (s t : bytes) : Prop := Forall2 same_letter s t.
Definition format_words : list (bytes * fmt) := [(lit "yaml", Yaml); (lit "yml", Yaml); (lit "json", Json); (lit "toml", Toml)].
Definition means (s : bytes) (f : fmt) : Prop := exists w, In (w, f) format_words /\ same_word s w.

(** The path ends with the file name [name]; slashes and [/.] after it do not count. *)
Definition named (p name : bytes) : Prop :=
  name <> [] /\ name <> lit "." /\ name <> lit ".." /\ ~ In "/" name
  /\ exists before after, (before = [] \/ exists d, before = d ++ ["/"]) /\ Forall (fun c => c = [] \/ c = lit ".") after
     /\ p = before ++ name ++ flat_map (fun c => "/" :: c) after.
(** The name has a dot after its first byte, and [e] follows the last one. *)
Definition has_extension (p e : bytes) : Prop := exists stem, stem <> [] /\ ~ In "." e /\ named p (stem ++ "." :: e).

(** * Input (C35) *)

(** The file a command names. *)
Definition input_file (c : command) : option bytes :=
  match c with
  | Encrypt a => in_file (ea_input a)
  | Decrypt a | Refresh a => in_file (pl_input a)
  | Edit a => in_file a
  | AddKeys a | RemoveKeys a => Some (ka_file a)
  end.
(** The text of the one source that is present. *)
Definition only_source (O : os) (fs : bytes -> node) (path : option bytes) (t : bytes) : Prop :=
  (exists p, path = Some p /\ os_stdin O = None /\ fs p = Content t) \/ (path = None /\ os_stdin O = Some t).

(** * Output (C36, C37) *)

(** The file a command writes; the others print. *)
Definition output_file (O : os) (c : command) : option bytes :=
  match c with
  | Encrypt a => if is_set (ea_in_place a) then in_file (ea_input a) else None
  | Decrypt a | Refresh a => if is_set (pl_in_place a) then in_file (pl_input a) else None
  | Edit a => match os_stdin O with None => in_file a | Some _ => None end
  | AddKeys a | RemoveKeys a => Some (ka_file a)
  end.
(** No effect fails. *)
Definition no_failures (O : os) : Prop := forall h o, os_io O h o = None.
Definition some_failure (O : os) : Prop := exists h o, os_io O h o <> None.
(** Removing the temporary file never fails. *)
Definition removable (O : os) : Prop := forall h, os_io O h (Removed (os_temp O)) = None.

(** * Configuration (C38, C41) *)

(** [r] is the first of the rules whose pattern matches the path. *)
Definition first_matching (re : regex_engine) (rules : list rule) (path : bytes) (r : rule) : Prop :=
  exists before after, rules = before ++ r :: after /\ re_match re (cr_path r) path = true /\ forall r', In r' before -> re_match re (cr_path r') path = false.
(** The one partial-encryption option given on the command line. *)
Inductive option_given : partial_args -> partial -> Prop :=
| og_esuffix s : option_given {| pa_esuffix := Some s; pa_eregex := None; pa_usuffix := None; pa_uregex := None |} (EncryptedSuffix s)
| og_eregex s : option_given {| pa_esuffix := None; pa_eregex := Some s; pa_usuffix := None; pa_uregex := None |} (EncryptedRegex s)
| og_usuffix s : option_given {| pa_esuffix := None; pa_eregex := None; pa_usuffix := Some s; pa_uregex := None |} (UnencryptedSuffix s)
| og_uregex s : option_given {| pa_esuffix := None; pa_eregex := None; pa_usuffix := None; pa_uregex := Some s |} (UnencryptedRegex s).
(** The file has these recipients, this rule, and mac_only_encrypted as given. *)
Definition made_for (md : meta evalue) (age : list bytes) (kms : list aws_key) (rule : option partial) : Prop :=
  (forall r, In r (map u_key (rc_age (md_recipients md))) <-> In r age) /\ (forall k, In k (map u_key (rc_kms (md_recipients md))) <-> In k kms)
  /\ distinct_recipients (md_recipients md) /\ md_partial md = rule.
(** Where the configuration comes from: [None] is the built-in default. *)
Inductive config_source (O : os) (fs : bytes -> node) (arg : option bytes) : option bytes -> Prop :=
| src_arg p : arg = Some p -> config_source O fs arg (Some p)
| src_var p : arg = None -> os_config_var O = Some p -> config_source O fs arg (Some p)
| src_nearest cwd a d : arg = None -> os_config_var O = None -> os_cwd O = Some cwd -> cwd = a ++ d -> fs (config_in d) <> Absent ->
    (forall b e, cwd = b ++ e -> length d < length e -> fs (config_in e) = Absent) -> config_source O fs arg (Some (config_in d))
| src_default cwd : arg = None -> os_config_var O = None -> os_cwd O = Some cwd ->
    (forall b e, cwd = b ++ e -> fs (config_in e) = Absent) -> config_source O fs arg None.

(** * Editing (C49) *)

(** The attempts of an editing session: each leaves a file behind.  [tried cd f attempts c rest]: after attempts whose texts did not
    parse, each followed by a key press, the file content is [c] and [rest] is still to come. *)
Inductive tried (cd : codec) (f : fmt) : list (node -> edited) -> node -> list (node -> edited) -> node -> Prop :=
| tried_none l c : tried cd f l c l c
| tried_one e l c t r c' err : e c = Closed (Content t) KeyPressed -> utf8_valid t = true -> read_map cd f t = Err err -> tried cd f l (Content t) r c' -> tried cd f (e :: l) c r c'.

(** The program [edit] starts, with its arguments (C75): the words of EDITOR, or the first of three programs that is found. *)
Definition known_editors : list bytes := [lit "vim"; lit "nano"; lit "vi"].
Definition default_editor (O : os) (p : bytes) : Prop :=
  exists before name after, known_editors = before ++ name :: after /\ Forall (fun n => os_which O n = None) before /\ os_which O name = Some p.
Inductive editor_line (O : os) : list bytes -> Prop :=
| el_named v ws : os_editor_var O = Some v -> utf8_text v -> shell_words v ws -> ws <> [] -> editor_line O ws
| el_default p : os_editor_var O = None -> default_editor O p -> utf8_text p -> editor_line O [p].
(** Its attempts on the temporary file, whose name is the last argument. *)
Definition attempts (O : os) (l : list (node -> edited)) : Prop := exists ws, editor_line O ws /\ l = os_editor O (ws ++ [os_temp O]).

(** * What a command computes *)

Section Computed.
  Context (re : regex_engine) (tp : tape) (ag : age_crate) (cd : codec) (O : os).

  (** The configuration in effect. *)
  Definition configured (fs : bytes -> node) (arg : option bytes) (rules : list rule) : Prop :=
    exists src, config_source O fs arg src
    /\ match src with None => rules = [] | Some p => exists s, fs p = Content s /\ utf8_valid s = true /\ read_config re ag cd s = Ok rules end.

  (** An editing session on the file content [t0] ends with the document [m]. *)
  Definition session (f : fmt) (t0 : bytes) (m : fmap) : Prop :=
    exists l e rest c t k, attempts O l /\ tried cd f l (Content t0) (e :: rest) c /\ e c = Closed (Content t) k /\ utf8_valid t = true /\ read_map cd f t = Ok m.

  (** An editing session abandoned after a text that does not parse. *)
  Definition cancelled (c : command) (fs : bytes -> node) : Prop :=
    exists a rules f s ef df sv t0 l e rest c' t err, c = Edit a /\ configured fs (in_config a) rules /\ only_source O fs (in_file a) s /\ utf8_valid s = true
    /\ get_format (in_file a) (in_format a) = Ok f
    /\ read_efile (re_valid re) ag cd f s = Ok ef /\ file_decrypt_save re ag (os_env O) f f ef = Ok (df, sv) /\ map_text cd f (fl_map df) = Ok t0
    /\ attempts O l /\ tried cd f l (Content t0) (e :: rest) c' /\ e c' = Closed (Content t) KeyInterrupted /\ utf8_valid t = true /\ read_map cd f t = Err err.

  (** The text a command computes from the files [fs] and the position [n] in the stream of random numbers. *)
  Definition computes (c : command) (fs : bytes -> node) (n : nat) (t : bytes) : Prop :=
    exists rules f s, configured fs (config_path c) rules /\ only_source O fs (input_file c) s /\ utf8_valid s = true
    /\ match c with
       | Encrypt a => get_format (in_file (ea_input a)) (in_format (ea_input a)) = Ok f
           /\ exists n', encrypt_text re tp ag cd (os_env O) f (merge_encrypt re rules a) s n = Ok (t, n')
       | Decrypt a => get_format (in_file (pl_input a)) (in_format (pl_input a)) = Ok f /\ decrypt_text re ag cd (os_env O) f s = Ok t
       | AddKeys a => get_format (Some (ka_file a)) (ka_format a) = Ok f /\ exists n', add_text re ag cd (os_env O) f (ka_keys a) s n = Ok (t, n')
       | RemoveKeys a => get_format (Some (ka_file a)) (ka_format a) = Ok f /\ exists n', remove_text re tp ag cd (os_env O) f (ka_keys a) s n = Ok (t, n')
       | Refresh a => get_format (in_file (pl_input a)) (in_format (pl_input a)) = Ok f
           /\ exists n', refresh_text re tp ag cd (os_env O) f rules (in_file (pl_input a)) s n = Ok (t, n')
       | Edit a => get_format (in_file a) (in_format a) = Ok f
           /\ exists ef df sv t0 m n', read_efile (re_valid re) ag cd f s = Ok ef /\ file_decrypt_save re ag (os_env O) f f ef = Ok (df, sv)
              /\ map_text cd f (fl_map df) = Ok t0 /\ session f t0 m /\ edited_text re tp cd (os_env O) f df sv m n = Ok (t, n')
       end.
End Computed.

(** * Documents over several commands (C40, C55) *)

(** The metadata of a file agrees with a creation rule. *)
Definition agrees (md : meta evalue) (r : rule) : Prop :=
  (forall k, In k (map u_key (rc_age (md_recipients md))) <-> In k (ks_age (cr_keys r)))
  /\ (forall k, In k (map u_key (rc_kms (md_recipients md))) <-> In k (ks_kms (cr_keys r)))
  /\ md_partial md = cr_partial r /\ (md_only md = Some true <-> cr_only r = Some true).
(** Recipients, and rules, that can be stored (C43, C57); paths the rule treats alike everywhere (C08). *)
Definition plain_keys (ag : age_crate) (ks : keys) : Prop := Forall (plain_recipient ag) (ks_age ks) /\ Forall plain_key (ks_kms ks).
Definition good_rule (re : regex_engine) (ag : age_crate) (dm : dmap) (r : rule) : Prop :=
  plain_keys ag (cr_keys r) /\ plain_rule (re_valid re) (cr_partial r) /\ colon_safe_map (cr_partial r) dm.
(** The editor does not change the file. *)
Definition leaves_alone (O : os) : Prop :=
  forall l e c, attempts O l -> In e l -> e c = NoLaunch \/ e c = ClosedWithError c \/ exists k, e c = Closed c k.

(** A document, its recipients and its rule can be stored (C08, C11, C43, C57). *)
Definition plain_document (g : f64 -> f64) (f : fmt) (m : fmap) (dm : dmap) : Prop :=
  fmt_doc f m /\ dec_map_to_internal f m = Ok dm /\ depth (FMap m) <= max_depth /\ no_sops m /\ kept_by_text g f m.
(** The command line parser accepts [--in-place] only with a file. *)
Definition ready (O : os) (c : command) : Prop :=
  match c with
  | Encrypt a => in_file (ea_input a) = None -> is_set (ea_in_place a) = false
  | Decrypt a | Refresh a => in_file (pl_input a) = None -> is_set (pl_in_place a) = false
  | _ => True
  end.

Section Sequences.
  Context (re : regex_engine) (tp : tape) (ag : age_crate) (cd : codec) (W : env -> Prop).

  (** Commands on the file [p], which holds the document [dm] in the format [f]: keys add, keys remove, refresh, unchanged edits, and
      everything that does not write [p]. *)
  Inductive keeps_document (p : bytes) (f : fmt) (dm : dmap) (O : os) (fs : bytes -> node) : command -> Prop :=
  | kd_add a : (forall f', get_format (Some p) (ka_format a) = Ok f' -> f' = f) -> ka_file a = p -> plain_keys ag (ka_keys a) -> keeps_document p f dm O fs (AddKeys a)
  | kd_remove a : (forall f', get_format (Some p) (ka_format a) = Ok f' -> f' = f) -> ka_file a = p -> keeps_document p f dm O fs (RemoveKeys a)
  | kd_refresh a : (forall f', get_format (Some p) (in_format (pl_input a)) = Ok f' -> f' = f) -> in_file (pl_input a) = Some p ->
      (forall rules r, configured re ag cd O fs (in_config (pl_input a)) rules -> first_matching re rules (path_to_match (Some p)) r -> good_rule re ag dm r) ->
      keeps_document p f dm O fs (Refresh a)
  | kd_edit a : (forall f', get_format (Some p) (in_format a) = Ok f' -> f' = f) -> in_file a = Some p -> leaves_alone O -> keeps_document p f dm O fs (Edit a)
  | kd_other c : output_file O c <> Some p -> keeps_document p f dm O fs c.

  (** Any number of such commands, each in its own surroundings, succeeding or failing, and anything that happens to other files. *)
  Inductive sequence (p : bytes) (f : fmt) (dm : dmap) (s : sys) : sys -> Prop :=
  | seq_none : sequence p f dm s s
  | seq_run s1 O c s2 o : sequence p f dm s s1 -> W (os_env O) -> no_failures O -> os_temp O <> p -> keeps_document p f dm O (sy_file s1) c ->
      run_command re tp ag cd O c s1 = (s2, o) -> sequence p f dm s s2
  | seq_elsewhere s1 s2 : sequence p f dm s s1 -> sy_file s2 p = sy_file s1 p -> sequence p f dm s s2.

  (** The file [p] was written by encrypting a document; then such commands, and edits that change the document, ran; now it holds [m]. *)
  Inductive history (g : f64 -> f64) (p : bytes) (f : fmt) : fmap -> sys -> Prop :=
  | hi_encrypted E b n ef n' t dm s : W E -> plain_document g f (bd_map b) dm -> colon_safe_map (bd_partial b) dm ->
      plain_keys ag {| ks_age := bd_age b; ks_kms := bd_kms b |} -> plain_rule (re_valid re) (bd_partial b) ->
      builder_encrypt re tp ag E f b n = Ok (ef, n') -> file_text cd f ef = Ok t -> sy_file s p = Content t -> history g p f (bd_map b) s
  | hi_more m dm s s' : history g p f m s -> dec_map_to_internal f m = Ok dm -> sequence p f dm s s' -> history g p f m s'
  | hi_edited m m' dm' O a s s' t0 : history g p f m s -> W (os_env O) -> no_failures O -> os_temp O <> p ->
      in_file a = Some p -> get_format (Some p) (in_format a) = Ok f -> map_text cd f (normal_doc m) = Ok t0 -> session cd O f t0 m' ->
      plain_document g f m' dm' -> (forall t ef, sy_file s p = Content t -> read_efile (re_valid re) ag cd f t = Ok ef -> colon_safe_map (md_partial (fl_meta ef)) dm') ->
      run_command re tp ag cd O (Edit a) s = (s', Ok tt) -> history g p f m' s'.

  (** With a matching private key the text decrypts to a text that reads as [m]. *)
  Definition decrypts_to (f : fmt) (t : bytes) (ef : efile) (m : fmap) : Prop :=
    forall E, W E -> can_open ag E (md_recipients (fl_meta ef)) -> exists t', decrypt_text re ag cd E f t = Ok t' /\ read_map cd f t' = Ok m.
End Sequences.
