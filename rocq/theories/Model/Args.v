(** The command line: from the arguments of the process to a command.
    Sources: crates/cli/src/args/*.rs, crates/cli/src/integration_keys.rs:14-30 and what clap 4.5.20 (outside /repo) derives from them.
    Two simplifications.  The arguments are first split into options and values and then read, where clap does both in turn: if a line has
    several faults, it is not modelled which one is found first.  Printing help and reporting an error are one reply: nothing is run. *)
From Verif.Model Require Export Cli.
Open Scope byte_scope.

(** args/core.rs:11-27, args/keys.rs:7-13. *)
Inductive verb := VEncrypt | VDecrypt | VEdit | VAdd | VRemove | VRefresh.
(** The fields of the argument structures; [AHelp] is added by clap. *)
Inductive arg := AAge | AKms | AESuffix | AERegex | AUSuffix | AURegex | AOnly | AConfig | AFormat | AInPlace | AHelp.
Definition all_args : list arg := [AAge; AKms; AESuffix; AERegex; AUSuffix; AURegex; AOnly; AConfig; AFormat; AInPlace; AHelp].
(** Which commands have which options: args/{encrypt,decrypt,edit,refresh,keys,input_args,misc_args}.rs. *)
Definition has_arg (v : verb) (a : arg) : bool :=
  match a, v with
  | AFormat, _ | AHelp, _ => true
  | AConfig, (VAdd | VRemove) => false
  | AConfig, _ => true
  | (AAge | AKms), (VEncrypt | VAdd | VRemove) => true
  | AInPlace, (VEncrypt | VDecrypt | VRefresh) => true
  | (AESuffix | AERegex | AUSuffix | AURegex | AOnly), VEncrypt => true
  | _, _ => false
  end.
(** [long]: the name of the field with dashes, or the given name (integration_keys.rs:18, 24). *)
Definition long_name (a : arg) : bytes :=
  match a with
  | AAge => lit "age" | AKms => lit "aws-kms" | AESuffix => lit "encrypted-suffix" | AERegex => lit "encrypted-regex"
  | AUSuffix => lit "unencrypted-suffix" | AURegex => lit "unencrypted-regex" | AOnly => lit "mac-only-encrypted"
  | AConfig => lit "config" | AFormat => lit "format" | AInPlace => lit "in-place" | AHelp => lit "help"
  end.
(** [short]: the first letter of the field. *)
Definition short_name (a : arg) : option byte :=
  match a with AConfig => Some "c" | AFormat => Some "f" | AInPlace => Some "i" | AHelp => Some "h" | _ => None end.
(** [ArgAction::SetTrue] and help take no value; everything else takes exactly one each time, [Vec] fields too ([ArgAction::Append]). *)
Definition takes_value (a : arg) : bool := match a with AOnly | AInPlace | AHelp => false | _ => true end.

Definition find_long (v : verb) (name : bytes) : option arg := find (fun a => has_arg v a && bytes_eqb (long_name a) name) all_args.
Definition find_short (v : verb) (c : byte) : option arg :=
  find (fun a => has_arg v a && match short_name a with Some x => beqb x c | None => false end) all_args.

(** * Splitting *)

(** One option with its value, one flag, or the value of the file argument. *)
Inductive item := Option_ (a : arg) (v : bytes) | Flag (a : arg) | File (v : bytes).

(** [clap_lex::ParsedArg::to_long], [to_short]: an argument that begins with a dash and is not a single dash is no value. *)
Definition dashed (t : bytes) : bool := match t with b :: _ :: _ => beqb b "-" | _ => false end.
(** The name and the value after the first [=]. *)
Fixpoint split_equals (t : bytes) : bytes * option bytes :=
  match t with
  | [] => ([], None)
  | b :: t' => if beqb b "=" then ([], Some t') else let (n, x) := split_equals t' in (b :: n, x)
  end.
(** The letters after one dash (clap_builder [parse_short_arg]): flags, then at most one option, whose value is the rest, or the next argument. *)
Fixpoint cluster (v : verb) (t : bytes) : option (list item * option arg) :=
  match t with
  | [] => Some ([], None)
  | c :: t' =>
      match find_short v c with
      | None => None
      | Some a =>
          if takes_value a then
            match t' with
            | [] => Some ([], Some a)
            | b :: x => Some ([Option_ a (if beqb b "=" then x else t')], None)
            end
          else match cluster v t' with Some (is, o) => Some (Flag a :: is, o) | None => None end
      end
  end.
Definition cons_items (is : list item) (o : option (list item)) : option (list item) := option_map (app is) o.
(** clap_builder [get_matches_with], for a command without subcommands. *)
Fixpoint split_line (v : verb) (ts : list bytes) : option (list item) :=
  (* the value of an option is the next argument *)
  let valued (ts : list bytes) (a : arg) (is : list item) :=
    match ts with
    | x :: ts' => if dashed x then None else cons_items (is ++ [Option_ a x]) (split_line v ts')
    | [] => None
    end in
  match ts with
  | [] => Some []
  | t :: ts' =>
      if dashed t then
        match t with
        | _ :: b :: t' =>
            if beqb b "-" then
              match t' with
              | [] => Some (map File ts')                                  (* everything after [--] *)
              | _ =>
                  let (name, x) := split_equals t' in
                  match find_long v name, x with
                  | None, _ => None
                  | Some a, Some x => if takes_value a then cons_items [Option_ a x] (split_line v ts') else None
                  | Some a, None => if takes_value a then valued ts' a [] else cons_items [Flag a] (split_line v ts')
                  end
              end
            else
              match cluster v (b :: t') with
              | None => None
              | Some (is, None) => cons_items is (split_line v ts')
              | Some (is, Some a) => valued ts' a is
              end
        | _ => None
        end
      else cons_items [File t] (split_line v ts')
  end.

(** * Reading *)

Inductive reply {A : Type} := Run (a : A) | Stop | Crash.
Arguments reply A : clear implicits.

(** The fields while the line is read. *)
Record fields := {
  fd_age : list bytes; fd_kms : list aws_key; fd_esuffix : option bytes; fd_eregex : option bytes; fd_usuffix : option bytes; fd_uregex : option bytes;
  fd_only : bool; fd_config : option bytes; fd_format : option fmt; fd_in_place : bool; fd_file : option bytes }.
Definition no_fields : fields :=
  {| fd_age := []; fd_kms := []; fd_esuffix := None; fd_eregex := None; fd_usuffix := None; fd_uregex := None;
     fd_only := false; fd_config := None; fd_format := None; fd_in_place := false; fd_file := None |}.

(** args/misc_args.rs:53-59 [ValueEnum], case-sensitive on the command line. *)
Definition format_value (s : bytes) : option fmt :=
  if bytes_eqb s (lit "yaml") || bytes_eqb s (lit "yml") then Some Yaml
  else if bytes_eqb s (lit "json") then Some Json else if bytes_eqb s (lit "toml") then Some Toml else None.
(** [Option<T>] fields may be set once ([ArgAction::Set]). *)
Definition set_once {A} (old : option A) (new : option A) (upd : option A -> fields) : reply fields :=
  match old, new with None, Some x => Run (upd (Some x)) | _, _ => Stop end.
(** [PathBufValueParser] rejects empty paths. *)
Definition path_value (s : bytes) : option bytes := match s with [] => None | _ => Some s end.

Section Reading.
  Context (re : regex_engine) (ag : age_crate).

  (** [String] and [Regex] values. *)
  Definition string_value (s : bytes) : option bytes := if utf8_valid s then Some s else None.
  Definition regex_value (s : bytes) : option bytes := if utf8_valid s && re_valid re s then Some s else None.

  (** clap_builder [react]: one occurrence. *)
  Definition react (i : item) (g : fields) : reply fields :=
    match i with
    | Option_ AAge s =>
        if utf8_valid s then
          match ag_recipient ag s with
          | Some r => Run {| fd_age := fd_age g ++ [r]; fd_kms := fd_kms g; fd_esuffix := fd_esuffix g; fd_eregex := fd_eregex g; fd_usuffix := fd_usuffix g; fd_uregex := fd_uregex g; fd_only := fd_only g; fd_config := fd_config g; fd_format := fd_format g; fd_in_place := fd_in_place g; fd_file := fd_file g |}
          | None => Stop
          end
        else Stop
    | Option_ AKms s =>
        if utf8_valid s then
          match parse_aws_key s with
          | Ok k => Run {| fd_age := fd_age g; fd_kms := fd_kms g ++ [k]; fd_esuffix := fd_esuffix g; fd_eregex := fd_eregex g; fd_usuffix := fd_usuffix g; fd_uregex := fd_uregex g; fd_only := fd_only g; fd_config := fd_config g; fd_format := fd_format g; fd_in_place := fd_in_place g; fd_file := fd_file g |}
          | Err _ => Stop
          | Panic => Crash
          end
        else Stop
    | Option_ AESuffix s => set_once (fd_esuffix g) (string_value s) (fun x => {| fd_age := fd_age g; fd_kms := fd_kms g; fd_esuffix := x; fd_eregex := fd_eregex g; fd_usuffix := fd_usuffix g; fd_uregex := fd_uregex g; fd_only := fd_only g; fd_config := fd_config g; fd_format := fd_format g; fd_in_place := fd_in_place g; fd_file := fd_file g |})
    | Option_ AERegex s => set_once (fd_eregex g) (regex_value s) (fun x => {| fd_age := fd_age g; fd_kms := fd_kms g; fd_esuffix := fd_esuffix g; fd_eregex := x; fd_usuffix := fd_usuffix g; fd_uregex := fd_uregex g; fd_only := fd_only g; fd_config := fd_config g; fd_format := fd_format g; fd_in_place := fd_in_place g; fd_file := fd_file g |})
    | Option_ AUSuffix s => set_once (fd_usuffix g) (string_value s) (fun x => {| fd_age := fd_age g; fd_kms := fd_kms g; fd_esuffix := fd_esuffix g; fd_eregex := fd_eregex g; fd_usuffix := x; fd_uregex := fd_uregex g; fd_only := fd_only g; fd_config := fd_config g; fd_format := fd_format g; fd_in_place := fd_in_place g; fd_file := fd_file g |})
    | Option_ AURegex s => set_once (fd_uregex g) (regex_value s) (fun x => {| fd_age := fd_age g; fd_kms := fd_kms g; fd_esuffix := fd_esuffix g; fd_eregex := fd_eregex g; fd_usuffix := fd_usuffix g; fd_uregex := x; fd_only := fd_only g; fd_config := fd_config g; fd_format := fd_format g; fd_in_place := fd_in_place g; fd_file := fd_file g |})
    | Option_ AConfig s => set_once (fd_config g) (path_value s) (fun x => {| fd_age := fd_age g; fd_kms := fd_kms g; fd_esuffix := fd_esuffix g; fd_eregex := fd_eregex g; fd_usuffix := fd_usuffix g; fd_uregex := fd_uregex g; fd_only := fd_only g; fd_config := x; fd_format := fd_format g; fd_in_place := fd_in_place g; fd_file := fd_file g |})
    | Option_ AFormat s => set_once (fd_format g) (format_value s) (fun x => {| fd_age := fd_age g; fd_kms := fd_kms g; fd_esuffix := fd_esuffix g; fd_eregex := fd_eregex g; fd_usuffix := fd_usuffix g; fd_uregex := fd_uregex g; fd_only := fd_only g; fd_config := fd_config g; fd_format := x; fd_in_place := fd_in_place g; fd_file := fd_file g |})
    | File s => set_once (fd_file g) (path_value s) (fun x => {| fd_age := fd_age g; fd_kms := fd_kms g; fd_esuffix := fd_esuffix g; fd_eregex := fd_eregex g; fd_usuffix := fd_usuffix g; fd_uregex := fd_uregex g; fd_only := fd_only g; fd_config := fd_config g; fd_format := fd_format g; fd_in_place := fd_in_place g; fd_file := x |})
    | Flag AOnly => if fd_only g then Stop else Run {| fd_age := fd_age g; fd_kms := fd_kms g; fd_esuffix := fd_esuffix g; fd_eregex := fd_eregex g; fd_usuffix := fd_usuffix g; fd_uregex := fd_uregex g; fd_only := true; fd_config := fd_config g; fd_format := fd_format g; fd_in_place := fd_in_place g; fd_file := fd_file g |}
    | Flag AInPlace => if fd_in_place g then Stop else Run {| fd_age := fd_age g; fd_kms := fd_kms g; fd_esuffix := fd_esuffix g; fd_eregex := fd_eregex g; fd_usuffix := fd_usuffix g; fd_uregex := fd_uregex g; fd_only := fd_only g; fd_config := fd_config g; fd_format := fd_format g; fd_in_place := true; fd_file := fd_file g |}
    | _ => Stop
    end.
  Fixpoint react_all (is : list item) (g : fields) : reply fields :=
    match is with
    | [] => Run g
    | i :: is' => match react i g with Run g' => react_all is' g' | Stop => Stop | Crash => Crash end
    end.

  (** The structure of the command; [requires], groups and required arguments. *)
  Definition input_of (g : fields) : input_args := {| in_config := fd_config g; in_format := fd_format g; in_file := fd_file g |}.
  Definition keys_of (g : fields) : keys := {| ks_age := fd_age g; ks_kms := fd_kms g |}.
  Definition command_of (v : verb) (g : fields) : option command :=
    match v with
    | VEncrypt => parse_encrypt
        {| el_keys := keys_of g; el_partial := {| pa_esuffix := fd_esuffix g; pa_eregex := fd_eregex g; pa_usuffix := fd_usuffix g; pa_uregex := fd_uregex g |};
           el_only := fd_only g; el_input := input_of g; el_in_place := fd_in_place g |}
    | VDecrypt => parse_place Decrypt (input_of g) (fd_in_place g)
    | VRefresh => parse_place Refresh (input_of g) (fd_in_place g)
    | VEdit => Some (Edit (input_of g))
    | VAdd => option_map (fun p => AddKeys {| ka_keys := keys_of g; ka_format := fd_format g; ka_file := p |}) (fd_file g)
    | VRemove => option_map (fun p => RemoveKeys {| ka_keys := keys_of g; ka_format := fd_format g; ka_file := p |}) (fd_file g)
    end.

  (** The names of the commands: args/core.rs:13-26, args/keys.rs:8-12. *)
  Definition verb_of (ts : list bytes) : option (verb * list bytes) :=
    match ts with
    | [] => None
    | t :: ts' =>
        if bytes_eqb t (lit "encrypt") || bytes_eqb t (lit "e") then Some (VEncrypt, ts')
        else if bytes_eqb t (lit "decrypt") || bytes_eqb t (lit "d") then Some (VDecrypt, ts')
        else if bytes_eqb t (lit "edit") then Some (VEdit, ts')
        else if bytes_eqb t (lit "refresh") then Some (VRefresh, ts')
        else if bytes_eqb t (lit "keys") || bytes_eqb t (lit "k") then
          match ts' with
          | u :: ts'' => if bytes_eqb u (lit "add") then Some (VAdd, ts'') else if bytes_eqb u (lit "remove") then Some (VRemove, ts'') else None
          | [] => None
          end
        else None
    end.
  (** run.rs:6 [CliArgs::parse], without the name of the program. *)
  Definition parse_line (ts : list bytes) : reply command :=
    match verb_of ts with
    | None => Stop
    | Some (v, ts') =>
        match split_line v ts' with
        | None => Stop
        | Some is =>
            match react_all is no_fields with
            | Run g => match command_of v g with Some c => Run c | None => Stop end
            | Stop => Stop
            | Crash => Crash
            end
        end
    end.
End Reading.
